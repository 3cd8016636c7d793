(** * Pareto Navigator: a navigation answer with a direction is followed by a request. *)
From Coq Require Import ZArith List Bool Lia Reals Lra.
From Verif Require Import Num NumXR Py Np Spec NpFacts XRFacts PAsf MRpm MParetoNav SParetoNav PParetoNav PParetoNav2 PParetoNav3 PParetoNav4 PParetoNav5 PParetoNav6.
Import ListNotations.
Open Scope R_scope.

Section Total.
  Context (e : pn_env XR) (k : nat) (Hk : (2 <= k)%nat) (HR : forall pts eqs, pe_hull e pts = Ok eqs -> exists r, eqs = xm r)
    (HX : hull_exact k (pe_hull e)) (HT : lp_total (pe_lp e)).

  Lemma solve_total c q a ideal nadir eqs A b :
    length c = k -> length ideal = k -> length nadir = k -> length q = k -> Forall2 Rlt ideal nadir -> Forall (fun r => length r = S k) eqs ->
    A = xm (rlpA k ideal nadir eqs) -> b = xv (rlpb eqs) -> (exists w, approximation eqs ideal nadir w) ->
    exists dir z, pn_direction (CVec (xv c : list XR)) (xv q) = Ok dir /\ pn_solve e (CVec (xv c)) (xv ideal) (xv nadir) dir (Fin a : XR) A b = Ok z.
  Proof.
    intros Hc Hi Hn Hq Hlt He -> -> (wit & HA). unfold pn_direction. rewrite bsub_xr by lia. exists (xv (rsub q c)).
    assert (Hl : length (rcomb (1 - a) c a q) = k) by (rewrite rcomb_length; lia).
    destruct (HT (1 :: repeat 0 k) (rlpA k ideal nadir eqs) (rcomb (1 - a) c a q ++ rlpb eqs) (rbnds ideal nadir)) as (x & Hx).
    - eapply feasible_ex; eauto.
    - apply lp_bounded; auto. lia.
    - exists (tl x). split; [reflexivity|]. unfold pn_solve. rewrite moved_xr by lia. cbn [rbind].
      rewrite !xv_length, Hl, Hc, Nat.eqb_refl. cbn [negb]. rewrite (proj2 (Nat.eqb_eq (length ideal) (length nadir))) by lia. cbn [negb].
      assert (E1 : (nofZ 1 :: repeat (nofZ 0) k) = (xv (1 :: repeat 0 k) : list XR)).
      { cbn [xv map]. apply (f_equal2 cons); [reflexivity|]. clear. induction k; cbn; [reflexivity|]. apply (f_equal2 cons); [reflexivity|exact IHn]. }
      assert (E2 : ((None, None) :: map (fun xy : XR * XR => (Some (fst xy), Some (snd xy))) (combine (xv ideal) (xv nadir))) = map xbound (rbnds ideal nadir)).
      { unfold rbnds. cbn [map xbound]. f_equal. clear. revert nadir. induction ideal as [|m ideal IH]; intros [|n nadir]; try reflexivity. cbn. f_equal. apply IH. }
      match goal with |- (do o <- pe_lp e ?c ?A ?b ?bd; _) = _ =>
        replace (pe_lp e c A b bd) with (Ok (Some x)) end; [reflexivity|].
      symmetry. rewrite xv_app in Hx. rewrite <- Hx. f_equal; [exact E1|exact E2].
  Qed.

  Definition has_direction (s : pn_state XR) (d : pn_dict XR) : Prop := ps_ref s <> None \/ pd_ref d <> None \/ pd_class d <> None.
  Lemma nav_total d s c i n v : pn_ok e k s -> pn_rl s -> pn_fin k s -> ps_cur s = Some (CVec (xv v)) -> length v = k -> ps_speed s <> None ->
    encloses s -> (exists eqs, approx_of e k s (ps_pos s) eqs) -> length i = k ->
    is_true (pd_show d) = false -> pn_validate (PReq c i n) d = Ok tt -> pn_answers k (PReq c i n) d -> has_direction s d ->
    exists z, snd (pn_handle e d s) = Ok (PReq (CVec z) (ps_ideal s) (ps_nadir s)).
  Proof.
    intros HO HL HF Hc Lv Hsp HB (eqs0 & HAp) Hi Hs Hv (An1 & An2 & An3) Hdir. rewrite handle_snd by exact Hs. rewrite Hc. cbn [attr].
    pose proof HL as [(ideal & nadir & Ei & En & Hlt) (pos & Ep) _]. pose proof HO as [HO1 HO2 HO3 HO4 _ _].
    rewrite Ei, xv_length in HO1. rewrite En, xv_length in HO2.
    (* the step *)
    assert (Ha : exists a, pn_step_of d (ps_speed s) = Ok (Fin a : XR)).
    { unfold pn_step_of. assert (E0 : exists a0, match pd_speed d with Some v0 => pn_speed_of v0 | None => attr TypeErr (ps_speed s) end = Ok (Fin a0 : XR)).
      { destruct (pd_speed d) as [w|] eqn:Ew.
        - destruct (An2 _ Ew) as (zz & ->). rewrite speed_int. eauto.
        - destruct (ps_speed s) as [a0|] eqn:Ea; [|congruence]. destruct (fin_speed _ _ HF _ Ea) as (r & ->). cbn. eauto. }
      destruct E0 as (a0 & ->). cbn [rbind]. destruct (is_true (pd_back d)); eexists; reflexivity. }
    destruct Ha as (a & ->). cbn [rbind].
    (* the reference point *)
    assert (Hq : exists q, pn_ref_of d s (CVec (xv v)) = Ok (xv q) /\ length q = k).
    { cbn [pn_validate] in Hv. rewrite Hs in Hv. apply rbind_ok in Hv. destruct Hv as (u & _ & Hv). unfold pn_ref_of.
      destruct (pd_ref d) as [ra|] eqn:Er.
      - destruct (An1 _ eq_refl) as (r & ->). destruct (pd_class d); [discriminate|].
        apply ref_valid_len in Hv. destruct Hv as (q' & Eq & Hl). injection Eq as <-. rewrite xv_length in Hl. exists r. split; [reflexivity|lia].
      - destruct (pd_class d) as [l|] eqn:Ec.
        + destruct (forallb class_ok l) eqn:Ecl; [|discriminate]. specialize (An3 _ eq_refl).
          destruct (class_ex (ps_ideal s) (ps_nadir s) (xv v) l) as (q & Eq); [rewrite Ei, xv_length; lia|rewrite En, xv_length; lia|rewrite xv_length; lia|exact Ecl|].
          rewrite Eq. rewrite Ei, En in Eq. destruct (class_fin _ _ _ _ _ Eq) as (r & ->). exists r. split; [reflexivity|].
          apply class_ref_spec in Eq. destruct Eq as [Eq _]. rewrite xv_length in Eq. lia.
        + destruct (ps_ref s) as [q0|] eqn:Eq0; [|destruct Hdir as [H|[H|H]]; congruence]. destruct (fin_ref _ _ HF _ Eq0) as (r & -> & Hr). exists r. auto. }
    destruct Hq as (q & -> & Lq). cbn [rbind].
    destruct (real_arrays e k Hk HR s ideal nadir HO Ei En Hlt) as (pts & extra & eqs & Eps & Eh & Ex & He & EA & Eb).
    destruct Ex as [->|(er & Er)]; [|destruct HAp as [A1 _ _ _ _]; congruence]. rewrite app_nil_r in Eps. subst pts.
    assert (HW : exists w, approximation eqs ideal nadir w).
    { rewrite Ep in HO3, HO4, Eh. destruct pos as [|w pos]; [contradiction (HO4 eq_refl)|]. exists w. apply xm_is_matrix in HO3. assert (Lw : length w = k) by (inversion HO3; assumption).
      destruct (HB (xv w)) as (B1 & B2); [rewrite Ep; left; reflexivity|]. rewrite Ei in B1. rewrite En in B2. apply xvle_iff in B1. apply xvle_iff in B2.
      split; [|split; assumption]. apply (HX _ _ Eh _ Lw). apply hull_point; [exact HO3|left; reflexivity]. }
    destruct (solve_total v q a ideal nadir eqs _ _ Lv HO1 HO2 Lq Hlt He EA Eb HW) as (dir & z & D1 & D2).
    rewrite D1. cbn [rbind]. rewrite Ei, En, D2. cbn [rbind]. eauto.
  Qed.
End Total.

(** ** A failed navigation call leaves nothing behind that a complete answer uses *)
Lemma handle_overwrites {N : NumOps} (e : pn_env N) d s a0 q0 : is_true (pd_show d) = false -> pd_speed d <> None -> (pd_ref d <> None \/ pd_class d <> None) ->
  snd (pn_handle e d (p_ref (p_speed s a0) q0)) = snd (pn_handle e d s) /\
  (forall s' rq, pn_handle e d s = (s', Ok rq) -> pn_handle e d (p_ref (p_speed s a0) q0) = (s', Ok rq)).
Proof.
  intros Hs Hsp Hr.
  assert (E : snd (pn_handle e d (p_ref (p_speed s a0) q0)) = snd (pn_handle e d s)).
  { rewrite !handle_snd by exact Hs. cbn [p_ref p_speed ps_speed ps_cur ps_ideal ps_nadir ps_A ps_b].
    unfold pn_step_of, pn_ref_of. destruct (pd_speed d) as [v|]; [|congruence]. destruct (pd_ref d) as [ra|]; [reflexivity|].
    destruct (pd_class d) as [l|]; [reflexivity|]. destruct Hr; congruence. }
  split; [exact E|]. intros s' rq H. rewrite H in E. cbn [snd] in E.
  destruct (pn_handle e d (p_ref (p_speed s a0) q0)) as [s2 out] eqn:E2. cbn [snd] in E. subst out.
  apply handle_ok in H; [|exact Hs]. apply handle_ok in E2; [|exact Hs].
  destruct H as (a & c & q & dir & z & F1 & F2 & F3 & _ & _ & -> & F4). destruct E2 as (a' & c' & q' & dir' & z' & G1 & G2 & G3 & _ & _ & -> & G4).
  cbn [p_ref p_speed ps_speed ps_cur] in G1, G2. assert (c' = c) by congruence. subst c'.
  assert (a' = a). { unfold pn_step_of in *. destruct (pd_speed d); [|congruence]. congruence. } subst a'.
  assert (q' = q). { unfold pn_ref_of in *. cbn [p_ref p_speed ps_ideal ps_nadir] in G3. destruct (pd_ref d) as [[| |]|]; try congruence. destruct (pd_class d); [congruence|]. destruct Hr; congruence. } subst q'.
  assert (z' = z) by congruence. subst z'. rewrite F4. destruct s; reflexivity.
Qed.
