(** * NAUTILUS: monotone iteration points in exact arithmetic; progress; the
    arguments of the optimizer. *)
From Coq Require Import ZArith List Bool Lia Reals Lra Sorted.
From Verif Require Import Num NumXR Py Np Spec NpFacts XRFacts Hoare PRpm MNautilus SNautilus PNautilus PNautilus2 PNautilus3 PNautilus4 PNautilus5.
Import ListNotations.

Lemma half_xr (z z0 z' : list R) : length z = length z0 ->
  bcast2 (@nadd XR) (vscale (ndiv (nofZ 1) (nofZ 2)) (xv z)) (vscale (ndiv (nofZ 1) (nofZ 2)) (xv z0)) = Ok (xv z') -> z' = rcomb (1 / 2) z (1 / 2) z0.
Proof.
  intros HL. rewrite !coef_xr by lia. rewrite comb_xr by exact HL. intros E. injection E as E. symmetry. apply xv_inj, E.
Qed.
Lemma half_between z z0 : rvle z z0 -> rvle z (rcomb (1 / 2) z (1 / 2) z0) /\ rvle (rcomb (1 / 2) z (1 / 2) z0) z0.
Proof.
  intros H. replace (rcomb (1 / 2) z (1 / 2) z0) with (rcomb (1 - 1 / 2) z (1 / 2) z0) by (f_equal; lra).
  apply rcomb_between; auto using rvle_refl; [lra|]. apply rvle_len, H.
Qed.
Lemma sorted_le {A} (P : A -> A -> Prop) (T : forall a b c, P a b -> P b c -> P a c) a b l : P a b -> StronglySorted P (b :: l) -> StronglySorted P (a :: b :: l).
Proof.
  intros H1 H2. constructor; [exact H2|]. constructor; [exact H1|]. inversion H2 as [|? ? ? HF]. eapply Forall_impl; [|exact HF]. intros c Hc. eapply T; eauto.
Qed.

Section Monotone.
  Context (p : nt_problem XR) (v : nt_variant XR) (eps : XR) (k : nat) (ideal nadir : list XR) (F : list XR -> list R) (s0 : list R).
  Context (WF : nt_wf k p v ideal nadir) (HF : forall x, np_eval p x = xv (F x)) (Hs0 : nt_start v nadir = xv s0).
  Context (HP : forall w q x, (exists y, rvle (F y) q) -> np_min p w nadir (nt_utopian ideal eps) (xv q) (np_x0 p) = Ok x -> rvle (F x) q).
  Context (H0 : exists y, rvle (F y) s0).

  Definition mono (st : list (list XR)) (w : vw XR) : Prop :=
    exists z0 z f rest, vz0 w = xv z0 /\ vz w = xv z /\ vf w = xv f /\ st = map xv (z :: z0 :: rest) /\ StronglySorted rvle (z :: z0 :: rest) /\ rvle f z /\ last rest z0 = s0.
  Lemma point_le l z f z' : (1 <= l)%Z -> rvle f z -> nt_point l (xv z) (xv f) = Ok z' -> exists r, z' = xv r /\ rvle f r /\ rvle r z.
  Proof.
    intros Hl H E. rewrite point_xr in E; [|lia|symmetry; apply rvle_len, H]. injection E as <-. eexists. split; [reflexivity|]. apply rcomb_step_between; assumption.
  Qed.
  Lemma last_cons {A} (a b : A) l : last (a :: l) b = last l a.
  Proof. revert a b. induction l as [|x l IH]; intros a b; [reflexivity|]. change (last (a :: x :: l) b) with (last (x :: l) b). rewrite (IH x b), (IH x a). reflexivity. Qed.
  Lemma trail_mono s q qs st : nt_trail p v eps ideal nadir (any_answers v) s (q :: qs) st ->
    seen p v k ideal nadir [nt_start v nadir] (fun _ => mono) s q qs st.
  Proof.
    intros H. apply (run_seen p v eps k ideal nadir WF trail_next [nt_start v nadir] (any_answers v)); [..|exact H].
    - intros q0 d Hd Hq0. unfold any_answers in Hd. destruct v; [left; reflexivity|right; auto].
    - intros d m x z' q0 _ HV HAs Hm HC HPt HL HS. destruct HS as (b & e & -> & _). cbn [trail_next].
      destruct HC as (me & i & wt & _ & _ & _ & HC). rewrite Hs0 in *. apply HP in HC; [|exact H0]. rewrite HF in HPt.
      destruct (point_le m s0 (F x) z' Hm HC HPt) as (r & -> & R1 & R2).
      exists s0, r, (F x), []. cbn [vz0 vz vf]. repeat (split; [first [reflexivity|apply HF]|]).
      split; [apply sorted_le; [apply rvle_trans|exact R2|constructor; constructor]|]. split; [exact R1|reflexivity].
    - cbn zeta. intros z lo up e qs0 h w d r w' (z0 & z1 & f & rest & E1 & E2 & E3 & -> & SS & Hf & HL) Ez Ef Hst _ _ _ _ _ _ _ HV HS.
      inversion SS as [|? ? SS' FA]; subst. assert (Hz : rvle z1 z0) by (inversion FA; assumption).
      assert (Hat : forall q, rvle z1 q -> exists y, rvle (F y) q).
      { intros q' Hq. exists (vx w). eapply rvle_trans; [|exact Hq]. replace (F (vx w)) with f; [exact Hf|]. apply xv_inj. rewrite <- HF. congruence. }
      inversion HS as [n' l' HC Hl|n' l' z' q' HC Hl (b & Eb & Tb) P Hpt Hsh|n' l' x z' q' HC Hl (b & Eb & Tb) P Hc Hpt Hsh|n' l' z' q' HC Hl (b & Eb & Tb) S' Hpt Hsh|n' l' HC Hl B S' P|n' l' x z' q' HC Hl (b & Eb & Tb) S' P Hc Hpt Hsh]; subst w'.
      + cbn [trail_next]. exists z0, z1, f, rest. cbn [vz0 vz vf]. auto 10.
      + destruct Hsh as (b' & e' & -> & _). cbn [trail_next]. rewrite Eb, Tb. rewrite E2, E3 in Hpt.
        destruct (point_le (l' - 1) z1 f z' ltac:(lia) Hf Hpt) as (r1 & -> & R1 & R2).
        exists z1, r1, f, (z0 :: rest). cbn [vz0 vz vf]. repeat (split; [solve [auto]|]). split; [apply sorted_le; [apply rvle_trans|exact R2|exact SS]|]. split; [exact R1|]. rewrite last_cons. exact HL.
      + destruct Hsh as (b' & e' & -> & _). cbn [trail_next]. rewrite Eb, Tb. destruct Hc as (me & i & wt & _ & _ & _ & HC'). rewrite E2 in Hpt, HC'. rewrite HF in Hpt.
        apply HP in HC'; [|apply Hat, rvle_refl].
        destruct (point_le (l' - 1) z1 (F x) z' ltac:(lia) HC' Hpt) as (r1 & -> & R1 & R2).
        exists z1, r1, (F x), (z0 :: rest). cbn [vz0 vz vf]. repeat (split; [solve [auto]|]). split; [apply sorted_le; [apply rvle_trans|exact R2|exact SS]|]. split; [exact R1|]. rewrite last_cons. exact HL.
      + destruct Hsh as (b' & e' & -> & _). cbn [trail_next]. rewrite Eb, Tb. rewrite E1, E2 in Hpt. cbn [map tl].
        rewrite !coef_xr, comb_xr in Hpt by (try lia; apply rvle_len, Hz). injection Hpt as <-. destruct (half_between z1 z0 Hz) as [R1 R2].
        exists z0, (rcomb (1 / 2) z1 (1 / 2) z0), f, rest. cbn [vz0 vz vf]. repeat (split; [solve [auto]|]).
        split; [apply sorted_le; [apply rvle_trans|exact R2|exact SS']|]. split; [eapply rvle_trans; eassumption|exact HL].
      + destruct Hsh as (b' & e' & -> & _). cbn [trail_next]. rewrite Eb, Tb. cbn [map tl]. destruct Hc as (me & i & wt & _ & _ & _ & HC'). rewrite E1 in Hpt, HC'. rewrite HF in Hpt.
        apply HP in HC'; [|apply Hat, Hz].
        destruct (point_le l' z0 (F x) z' ltac:(lia) HC' Hpt) as (r1 & -> & R1 & R2).
        exists z0, r1, (F x), rest. cbn [vz0 vz vf]. repeat (split; [solve [auto]|]).
        split; [apply sorted_le; [apply rvle_trans|exact R2|exact SS']|]. split; [exact R1|exact HL].
    - intros qs0 h w d x f HM. exact HM.
  Qed.

  (** A short step back moves the iteration point back. *)
  Lemma short_mono s z lo up e qs st d s' z' lo' up' e' :
    nt_trail p v eps ideal nadir (any_answers v) s (NReq z lo up e :: qs) st -> nt_validate v nadir (NReq z lo up e) d = Ok tt -> any_answers v (NReq z lo up e) d ->
    says (nd_back d) true -> says (nd_short d) true ->
    nt_iterate p v eps ideal nadir (NReq z lo up e) (Some d) s = (s', Ok (Some (NReq z' lo' up' e'))) ->
    exists r r0 r', z = xv r /\ nth_error st 1 = Some (xv r0) /\ z' = xv r' /\ r' = rcomb (1 / 2) r (1 / 2) r0 /\ rvle r r' /\ rvle r' r0.
  Proof.
    intros HT HV HA HB HS HI. apply trail_mono in HT. destruct HT as [(_ & E & _)|(L & w & V1 & V2 & V3 & (z0 & z1 & f & rest & E1 & E2 & E3 & -> & SS & Hf & HL) & [(b1 & e1 & E & _)|E])]; try discriminate.
    injection E as -> -> -> ->. inversion SS as [|? ? SS' FA]; subst. assert (Hz : rvle z1 z0) by (inversion FA; assumption).
    cbn [nt_iterate nt_resp] in HI. unfold sbind at 1 in HI. cbn [lift] in HI.
    destruct (validate_req _ _ _ _ _ _ _ HV) as ((b & u & Eb & Eu & _) & HD).
    assert (HC : vchange_ok v d w).
    { unfold vchange_ok. unfold any_answers in HA. destruct v; [exact Logic.I|]. rewrite HA by discriminate. discriminate. }
    pose proof (hs_run _ _ _ _ _ _ _ (handle_view p v eps k ideal nadir WF d L w b u V2 HC HD Eb Eu) V1 HI) as (L' & w' & HS' & _).
    inversion HS' as [n' l' HC' Hl|n' l' y q' HC' Hl B P Hpt Hsh|n' l' x y q' HC' Hl B P Hc Hpt Hsh|n' l' y q' HC' Hl B S' Hpt Hsh|n' l' HC' Hl B S' P|n' l' x y q' HC' Hl B S' P Hc Hpt Hsh]; subst w';
      try (exfalso; exact (says_fun _ HB B)); try (exfalso; exact (says_fun _ HS S')).
    destruct Hsh as (b' & e2 & E & _). injection E as -> -> -> ->. rewrite E1, E2 in Hpt. rewrite !coef_xr, comb_xr in Hpt by (try lia; apply rvle_len, Hz). injection Hpt as <-.
    exists z1, z0, (rcomb (1 / 2) z1 (1 / 2) z0). split; [exact E2|]. split; [reflexivity|]. split; [reflexivity|]. split; [reflexivity|]. apply half_between, Hz.
  Qed.
End Monotone.

(** ** Progress: an answered request is followed by another one *)
Section Progress.
  Context {N : NumOps} (p : nt_problem N) (v : nt_variant N) (eps : N) (k : nat) (ideal nadir : list N).
  Context (WF : nt_wf k p v ideal nadir) (HT : nt_total p).

  (** New preferences give weights. *)
  Definition usable (d : nt_dict N) : Prop :=
    exists m i w, nd_method d = Some m /\ nd_info d = Some i /\ nt_weights v m i nadir (nt_utopian ideal eps) = Ok w.
  Lemma usable_fault d e : usable d -> fault p v eps ideal nadir d e -> False.
  Proof.
    intros (m & i & w & E1 & E2 & E3) H. destruct H as [[H|H]|m' i' e' H1 H2 H3|w' q e' H1]; try congruence.
    destruct (proj1 HT w' nadir (nt_utopian ideal eps) q (np_x0 p)) as (x & Hx). congruence.
  Qed.
  Lemma ecm_fault_no e : ecm_fault p e -> False.
  Proof. intros (i & z & H). destruct (proj2 HT i z (np_x0 p)) as (x & Hx). congruence. Qed.

  Definition complete (q : nt_request N) (d : nt_dict N) : Prop :=
    match q with
    | NInit => usable d
    | NReq _ _ _ _ =>
        (says (nd_back d) true -> says (nd_short d) true \/ (says (nd_short d) false /\ says (nd_prev d) false)) /\
        (says (nd_prev d) false -> usable d)
    | NStop _ _ => True
    end.
  Lemma progress s q qs d : nt_path p v eps ideal nadir (any_answers v) s (q :: qs) -> nt_validate v nadir q d = Ok tt -> any_answers v q d -> complete q d ->
    exists s' q', nt_iterate p v eps ideal nadir q (Some d) s = (s', Ok (Some q')).
  Proof.
    intros HP HV HA HC.
    assert (G : seen p v k ideal nadir tt (fun _ _ _ => True) s q qs tt).
    { apply (run_seen p v eps k ideal nadir WF (fun _ _ _ _ => tt) tt (any_answers v)); auto.
      intros q0 d0 Hd Hq0. unfold any_answers in Hd. destruct v; [left; reflexivity|right; auto]. }
    destruct G as [(_ & -> & Es & _)|(L & w & V1 & V2 & V3 & _ & V5)].
    - cbn [nt_iterate nt_resp]. destruct (validate_init _ _ _ HV) as (_ & _ & _ & o & m & Eo & Em & Hm). unfold sbind at 1. cbn [lift].
      destruct (nt_handle_initial p v eps ideal nadir d s) as [s1 r1] eqn:E1. unfold sbind. rewrite E1.
      assert (Hst : ns_step s = 1) by (rewrite Es; reflexivity).
      pose proof (hs_run _ _ _ _ _ _ _ (initial_view p v eps k ideal nadir WF d o m Eo Em Hm) Hst E1) as G0.
      destruct r1 as [q1|e]; [exists s1, q1; reflexivity|]. exfalso. destruct G0 as [G0|G0]; [exact (usable_fault d e HC G0)|exact (ecm_fault_no e G0)].
    - destruct q as [|z lo up e|x f].
      + destruct V5 as [(b & e & E & _)|E]; discriminate E.
      + cbn [nt_iterate nt_resp]. unfold sbind at 1. cbn [lift].
        destruct (validate_req _ _ _ _ _ _ _ HV) as ((b & u & Eb & Eu & _) & HD).
        assert (HCo : vchange_ok v d w).
        { unfold vchange_ok. unfold any_answers in HA. destruct v; [exact Logic.I|]. rewrite HA by discriminate. discriminate. }
        destruct (nt_handle p v eps ideal nadir d s) as [s1 r1] eqn:E1.
        pose proof (hs_run _ _ _ _ _ _ _ (handle_view p v eps k ideal nadir WF d L w b u V2 HCo HD Eb Eu) V1 E1) as G0.
        cbn [complete] in HC. destruct HC as [HC1 HC2].
        destruct r1 as [[q1|]|e1]; [eauto| |]; exfalso.
        * destruct G0 as (L' & w' & G0 & _). inversion G0 as [| | | |n' l' HC' Hl B S' P|]. destruct (HC1 B) as [K|[_ K]]; [exact (says_fun _ K S')|exact (says_fun _ P K)].
        * destruct G0 as [G0|[[Tu G0]|[G0 Tb]]]; [exact (ecm_fault_no e1 G0)| |].
          -- apply (usable_fault d e1); [|exact G0]. apply HC2. rewrite Eu. exists u. auto.
          -- destruct (HC1 ltac:(rewrite Eb; exists b; auto)) as [(h & E & _)|[(h & E & _) _]]; congruence.
      + cbn [nt_iterate]. unfold sret. eauto.
  Qed.

  (** A step forward: the optimizer is given the weights of the new preferences
      and the current iteration point; the next point lies 1/(remaining steps) of
      the way to its solution. *)
  Lemma forward_step n s z lo up e qs d s' q' : nt_path p v eps ideal nadir (forward_answers n) s (NReq z lo up e :: qs) ->
    nt_validate v nadir (NReq z lo up e) d = Ok tt -> keeps d \/ renews d ->
    nt_iterate p v eps ideal nadir (NReq z lo up e) (Some d) s = (s', Ok (Some q')) ->
    (Z.of_nat (length qs) = n /\ exists x, q' = NStop (Some x) (Some (np_eval p x))) \/
    ((Z.of_nat (length qs) < n)%Z /\ exists x z' lo' e', q' = NReq z' lo' z' e' /\ nt_point (n - Z.of_nat (length qs)) z (np_eval p x) = Ok z' /\
       (renews d -> chosen p v eps ideal nadir d z x)).
  Proof.
    intros HR HV HK HI.
    assert (HA : forward_answers n (NReq z lo up e) d) by (split; [discriminate|auto]).
    assert (HR' := HR). apply (forward_seen p v eps k ideal nadir WF) in HR'.
    destruct HR' as [(_ & E & _)|(L & w & V1 & V2 & V3 & (F1 & F2 & q1 & qs1 & F3 & F4 & _) & [(b1 & e1 & E & _)|E])]; try discriminate. injection E as -> -> -> ->. injection F3 as <- <-.
    destruct F4 as [(F4 & F5 & F6 & _)|(_ & x & f & E)]; [|discriminate].
    cbn [nt_iterate nt_resp] in HI. unfold sbind at 1 in HI. cbn [lift] in HI.
    destruct (validate_req _ _ _ _ _ _ _ HV) as ((b & u & Eb & Eu & _) & HD).
    assert (Hn : nd_n d = None) by (destruct HK as [K|K]; apply K). assert (Hb : says (nd_back d) false) by (destruct HK as [K|K]; apply K).
    assert (HC : vchange_ok v d w).
    { unfold vchange_ok. destruct v; [exact Logic.I|]. rewrite Hn. discriminate. }
    pose proof (hs_run _ _ _ _ _ _ _ (handle_view p v eps k ideal nadir WF d L w b u V2 HC HD Eb Eu) V1 HI) as (L' & w' & HS' & _).
    inversion HS' as [n' l' HC' Hl|n' l' y q2 HC' Hl B P Hpt Hsh|n' l' x y q2 HC' Hl B P Hch Hpt Hsh|n' l' y q2 HC' Hl B S' Hpt Hsh|n' l' HC' Hl B S' P|n' l' x y q2 HC' Hl B S' P Hch Hpt Hsh]; subst w';
      try (exfalso; exact (says_fun _ B Hb)); rewrite (counters_none v d _ _ Hn) in HC'; injection HC' as <- <-.
    - left. split; [lia|]. exists (vx w). rewrite V3. reflexivity.
    - right. split; [lia|]. destruct Hsh as (b' & e2 & -> & _). exists (vx w), y, b', e2. split; [reflexivity|]. rewrite <- V3.
      replace (n - Z.of_nat (length qs))%Z with (vl w - 1)%Z by lia. split; [exact Hpt|]. intros (_ & K & _). exfalso. exact (says_fun _ P K).
    - right. split; [lia|]. destruct Hsh as (b' & e2 & -> & _). exists x, y, b', e2. split; [reflexivity|].
      replace (n - Z.of_nat (length qs))%Z with (vl w - 1)%Z by lia. auto.
  Qed.
  (** The first step. *)
  Lemma initial_step d n q s' : nt_validate v nadir NInit d = Ok tt -> asks d n ->
    nt_iterate p v eps ideal nadir NInit (Some d) nt_init = (s', Ok (Some q)) ->
    exists x z' lo' e', q = NReq z' lo' z' e' /\ nt_point n (nt_start v nadir) (np_eval p x) = Ok z' /\ chosen p v eps ideal nadir d (nt_start v nadir) x.
  Proof.
    intros HV HAs HI. cbn [nt_iterate nt_resp] in HI. destruct (validate_init _ _ _ HV) as (_ & _ & _ & o & m & Eo & Em & Hm). unfold sbind at 1 in HI. cbn [lift] in HI.
    destruct (nt_handle_initial p v eps ideal nadir d nt_init) as [s1 r1] eqn:E1. unfold sbind in HI. rewrite E1 in HI.
    pose proof (hs_run _ _ _ _ _ _ _ (initial_view p v eps k ideal nadir WF d o m Eo Em Hm) (eq_refl : ns_step (@nt_init N) = 1) E1) as G0.
    destruct r1 as [q1|e]; cbn in HI; [|discriminate]. injection HI as <- <-. destruct G0 as (x & z' & G1 & G2 & G3 & G4 & (b & e & -> & _)).
    assert (m = n) by (destruct HAs as (o' & K1 & K2); congruence). subst m. eauto 10.
  Qed.
End Progress.
