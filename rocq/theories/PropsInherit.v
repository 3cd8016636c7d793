(** * What can be said about constraints although they are not passed on (C67, C86),
    and what perturbate does (C58). *)
From Coq Require Import String.
From Coq Require Import ZArith List Bool Lia Reals Lra Floats ClassicalEpsilon.
From Verif Require Import Num NumXR NumF64 Py Np Spec NpFacts XRFacts Hoare MAsf PAsf MSolvers SSolvers PSolvers PSolvers2 PropsSolvers PropsSolvers2 PropsSolvers3.
From Verif Require MAsf PNavigator6 MRpm MNautilus SNautilus PNautilus8 PropsNautilus MPaint.
Import ListNotations.

(** ** C86: harmless constraints *)
(** If every solution that is Pareto optimal within the bounds happens to satisfy the
    constraints, everything returned is Pareto optimal for the constrained problem
    (exact numbers, exact solver). *)
Theorem C86_harmless_constraints_partial :
  forall (e : sv_env XR) eval n bounds st ss eps id nd c method V O,
  honest e -> exact_ceil e -> uses_asf e -> id <> [] -> rvle id nd -> (0 < eps)%R -> step_is (length id) st ss -> Forall (fun s => (0 < s)%R) ss ->
  (forall x, within bounds x -> exists f, eval x = xv f /\ length f = length id) ->
  length bounds <> 1%nat -> sane e eval (length bounds) (length id) ->
  (forall x, pareto bounds None eval x -> respects (Some c) x) ->
  sv_front e eval n bounds st (Fin eps : XR) (Some (xv id)) (Some (xv nd)) (Some c) method = Ok (V, O) ->
  Forall2 (fun x f => f = eval x /\ pareto bounds (Some c) eval x) V O.
Proof.
  intros e eval n bounds st ss eps id nd c method V O HH HC HA Hne Hle He Hst Hs HE Hb HS HR H.
  destruct (C60_pareto_optimal e eval n bounds st ss eps id nd (Some c) method V O HH HC HA Hne Hle He Hst Hs HE H) as [HP _].
  assert (Hnd : nd <> []) by (intros ->; apply rvle_len in Hle; destruct id; [congruence|discriminate]).
  pose proof (C60_aligned XR XR_ord e eval n bounds st (Fin eps : XR) (xv id) (xv nd) (Some c) method V O (known_xr id Hne) (known_xr nd Hnd) Hb) as HAl.
  rewrite xv_length in HAl. specialize (HAl HS H).
  clear H. induction HAl as [|x f V O (E & z & j & Hj & _ & J2 & J3 & _) HAl IH]; constructor; [|apply IH; intros g Hg; apply HP; right; exact Hg].
  split; [exact E|]. destruct (HP f (or_introl eq_refl)) as (y & Py & Ey). destruct (HH _ _ Hj) as (HF & _). rewrite J2, J3 in HF.
  assert (Px : pareto bounds None eval x).
  { split; [exact HF|]. intros y' Hy'. rewrite <- E, Ey. exact (proj2 Py y' Hy'). }
  split; [split; [exact (proj1 HF)|exact (HR x Px)]|]. intros y' Hy'. apply (proj2 Px). split; [exact (proj1 Hy')|exact Logic.I].
Qed.
Print Assumptions C86_harmless_constraints_partial.

(** A solver that answers the origin and says whether that is a minimum. *)
Definition origin_env : sv_env XR :=
  MkSE (fun j => if excluded_middle_informative (is_min j (xv [0; 0]%R)) then Ok (xv [0; 0]%R, true) else Ok (xv [0; 0]%R, false))
    (fun nd id f q => Ok (PNavigator6.pm_asf nd id f q)) xceil.
Lemma origin_answer j : exists b, sv_minimize origin_env j = Ok (xv [0; 0]%R, b) /\ (b = true -> is_min j (xv [0; 0]%R)).
Proof. cbn [sv_minimize origin_env]. destruct (excluded_middle_informative (is_min j (xv [0; 0]%R))); [exists true; auto|exists false; split; [reflexivity|discriminate]]. Qed.
Definition below_2 (x : list XR) : list XR := match x with a :: _ => [nsub (Fin 2 : XR) a] | [] => [] end.
(** The unit square with the constraint x1 <= 2. *)
Example C86_harmless_hypotheses_met : exists V O,
  honest origin_env /\ exact_ceil origin_env /\ uses_asf origin_env /\ rvle [0; 0]%R [1; 1]%R /\ sane origin_env two_eval (length unit_b) 2 /\
  (forall x, pareto unit_b None two_eval x -> respects (Some below_2) x) /\
  sv_front origin_env two_eval 2 unit_b (StFloat (Fin (1/10) : XR)) (Fin (1/1000000) : XR) (Some (xv [0; 0]%R)) (Some (xv [1; 1]%R)) (Some below_2) "scipy_de" = Ok (V, O).
Proof.
  destruct (C90_accepted origin_env two_eval 2 unit_b (StFloat (Fin (1/10) : XR)) [1/10; 1/10]%R (1/1000000) [0; 0]%R [1; 1]%R (Some below_2) "scipy_de") as (V & O & H);
    try apply st_ok; try discriminate; try reflexivity; try lra; try apply best_ceil.
  { intros z _. destruct (origin_answer (MkJob (fun x => sv_asf origin_env (xv [1; 1]%R) (xv [0; 0]%R) (two_eval x) (xv z)) unit_b None "scipy_de"%string None)) as (b & E & _).
    exists (xv [0; 0]%R), b. split; [exact E|]. intros _. split; reflexivity. }
  exists V, O. split.
  { intros j x Hj. destruct (origin_answer j) as (b & E & Hb). rewrite E in Hj. injection Hj as <- Hb'. apply Hb. exact Hb'. }
  split; [exact best_ceil|]. split; [intros nd id f q; reflexivity|]. split; [exact nd_le|]. split.
  { intros j x Hj. destruct (origin_answer j) as (b & E & _). rewrite E in Hj. injection Hj as <- _. change (two_eval (xv [0; 0]%R)) with (xv [0; 0]%R : list XR). repeat split; left; apply xisnan_fin. }
  split; [|exact H]. intros x (HF & _). destruct HF as [HF _]. apply unit_within in HF. destruct HF as (a & b & -> & Ha & Hb).
  cbn [respects below_2 xv map]. constructor; [|constructor]. change (@nsub XR (Fin 2 : XR) (Fin a : XR)) with (Fin (2 - a) : XR). change (@nofZ XR 0) with (Fin 0 : XR). apply xleb_fin. lra.
Qed.

(** ** C67: what the solutions inherit *)
Import MNautilus SNautilus.
Section Inherit.
  Context {N : NumOps} (p : nt_problem N) (v : nt_variant N) (eps : N) (ideal nadir : list N) (P : list N -> Prop).
  Hypothesis HM : forall w n u q x0 x, np_min p w n u q x0 = Ok x -> P x.
  Definition good (s : nt_state N) : Prop := forall i x, nth_error (ns_xs s) i = Some (Some x) -> P x.
  Notation keep m := (hs good m (fun _ => good) (fun _ => good)).
  Definition fine (q : nt_request N) : Prop := match q with NStop (Some x) _ => P x | _ => True end.
  Lemma k_bind {A B} (m : SE (nt_state N) A) (f : A -> SE (nt_state N) B) Q : keep m -> (forall a, hs good (f a) Q (fun _ => good)) -> hs good (sbind m f) Q (fun _ => good).
  Proof. intros H1 H2. eapply hs_bind; [exact H1|]. exact H2. Qed.
  Lemma k_lift {A} (r : res A) : keep (lift r).
  Proof. intros s Hs. unfold lift. destruct r; exact Hs. Qed.
  Lemma k_get : keep sget.
  Proof. intros s Hs. exact Hs. Qed.
  Lemma k_mod g : (forall s, ns_xs (g s) = ns_xs s) -> keep (smod g).
  Proof. intros H s Hs. unfold smod, good in *. cbn. rewrite H. exact Hs. Qed.
  Lemma k_put {A} get put i (x : A) : (forall s l, ns_xs (put s l) = ns_xs s) -> keep (nput get put i x).
  Proof.
    intros H. unfold nput. apply k_bind; [apply k_get|]. intros s0. apply k_bind; [apply k_lift|]. intros l. apply k_mod. intros s. apply H.
  Qed.
  Lemma k_putx i o : (forall x, o = Some x -> P x) -> keep (nput ns_xs u_xs i o).
  Proof.
    intros HP s Hs. unfold nput, sbind, sget, lift, smod. destruct (set_ (ns_xs s) i o) as [l|] eqn:E; [|exact Hs].
    apply set_ok_inv in E. intros j x Hx. cbn [u_xs ns_xs] in Hx. destruct (Nat.eq_dec j i) as [->|Hn].
    - rewrite (set_nth_get_same _ _ _ _ E) in Hx. injection Hx as ->. apply HP. reflexivity.
    - rewrite (set_nth_get_other _ _ j _ _ E (not_eq_sym Hn)) in Hx. eapply Hs; eauto.
  Qed.
  Ltac k1 := first [ apply k_lift | apply k_get | apply k_put; reflexivity | apply k_mod; reflexivity | apply hs_ret; intros; assumption ].
  Ltac kk := repeat (first [ k1 | apply k_bind; [solve [k1]|intros] ]).
  Lemma k_solve d : keep (nt_solve p v eps ideal nadir d).
  Proof.
    unfold nt_solve. do 3 (apply k_bind; [k1|intros ?]). apply k_bind; [k1|]. intros s0. apply k_bind; [k1|]. intros q0.
    eapply hs_bind with (R := fun x s => P x /\ good s).
    { intros s Hs. unfold lift. destruct (np_min p _ nadir (nt_utopian ideal eps) q0 (np_x0 p)) as [x|] eqn:E; [split; [eapply HM; eauto|exact Hs]|exact Hs]. }
    intros x s [Hx Hs]. revert s Hs.
    match goal with |- forall s, good s -> match ?m s with _ => _ end => change (keep m) end.
    apply k_bind; [apply k_putx; intros y Ey; injection Ey as <-; exact Hx|]. intros []. apply k_put; reflexivity.
  Qed.
  Lemma k_move : keep nt_move.
  Proof. unfold nt_move. kk. Qed.
  Lemma k_report : hs good (nt_report p v ideal nadir) (fun q s => fine q /\ good s) (fun _ => good).
  Proof. unfold nt_report. kk. apply hs_ret. intros s Hs. split; [exact Logic.I|exact Hs]. Qed.
  Lemma k_some (m : SE (nt_state N) (nt_request N)) : hs good m (fun q s => fine q /\ good s) (fun _ => good) ->
    hs good (sbind m (fun q => sret (Some q))) (fun r s => (forall q, r = Some q -> fine q) /\ good s) (fun _ => good).
  Proof. intros H. eapply hs_bind; [exact H|]. intros q. apply hs_ret. intros s [F G]. split; [|exact G]. intros q' E. injection E as <-. exact F. Qed.
  Lemma k_initial d : hs good (nt_handle_initial p v eps ideal nadir d) (fun q s => fine q /\ good s) (fun _ => good).
  Proof.
    unfold nt_handle_initial. apply k_bind; [k1|]. intros o. apply k_bind; [k1|]. intros n. apply k_bind.
    { intros s Hs. unfold smod, good. cbn [ns_xs]. intros i x Hx. exfalso. apply nth_error_In, repeat_spec in Hx. discriminate. }
    intros _. apply k_bind; [k1|]. intros s0. apply k_bind; [k1|]. intros _. apply k_bind; [k1|]. intros m. apply k_bind; [k1|]. intros i.
    apply k_bind; [k1|]. intros w. apply k_bind; [k1|]. intros _. apply k_bind; [k1|]. intros _.
    apply k_bind; [apply k_solve|]. intros _. apply k_bind; [apply k_move|]. intros _. apply k_report.
  Qed.
  Lemma k_forward d : hs good (nt_forward p v eps ideal nadir d) (fun q s => fine q /\ good s) (fun _ => good).
  Proof.
    unfold nt_forward. apply k_bind; [k1|]. intros _. apply k_bind; [k1|]. intros u. apply k_bind.
    { destruct (truthy u); [|apply k_solve]. apply hs_get_bind. intros s0 G0. apply (hs_pre _ good); [intros ? ->; exact G0|].
      intros s Hs. unfold sbind at 1. unfold lift. destruct (at_ (ns_xs s0) (ns_step s0 - 1)) as [o|] eqn:E; [|exact Hs].
      apply at_ok in E. revert s Hs.
      match goal with |- forall s, good s -> match ?m s with _ => _ end => change (keep m) end.
      apply k_bind; [apply k_putx; intros x ->; eapply G0; eauto|]. intros []. kk. }
    intros _. apply k_bind; [apply k_move|]. intros _. apply k_report.
  Qed.
  Lemma k_handle d : hs good (nt_handle p v eps ideal nadir d) (fun r s => (forall q, r = Some q -> fine q) /\ good s) (fun _ => good).
  Proof.
    unfold nt_handle. apply k_bind.
    { unfold nt_change. destruct (nd_n d) as [o|]; [|kk]. apply k_bind; [k1|]. intros m s Hs. unfold smod. cbn.
      intros i x Hx. unfold nt_set_left, nt_extend in Hx. destruct v; destruct (ns_n s <? m)%Z; cbn [ns_xs] in Hx; try (eapply Hs; eassumption);
        unfold ext in Hx; (destruct (Nat.lt_ge_cases i (List.length (ns_xs s))) as [G|G]; [rewrite nth_error_app1 in Hx by exact G; eapply Hs; eauto|]);
        rewrite nth_error_app2 in Hx by exact G; apply nth_error_In, repeat_spec in Hx; discriminate. }
    intros _. apply hs_get_bind. intros s0 G0. apply (hs_pre _ good); [intros ? ->; exact G0|]. destruct (ns_left s0 <=? 1)%Z.
    - apply k_bind; [k1|]. intros _. intros s Hs. unfold sbind at 1. unfold lift at 1. destruct (at_ (ns_xs s0) (ns_step s0)) as [o|] eqn:E; [|exact Hs].
      unfold sbind, lift. destruct (at_ (ns_fs s0) (ns_step s0)) as [f|]; [|exact Hs]. cbn. split; [|exact Hs]. intros q Eq. injection Eq as <-.
      apply at_ok in E. destruct o as [x|]; [|exact Logic.I]. cbn. eapply G0; eauto.
    - apply k_bind; [k1|]. intros b. destruct (negb (truthy b)).
      + apply k_some, k_forward.
      + apply k_bind; [k1|]. intros h. destruct (truthy h).
        * apply k_some. unfold nt_half. do 5 (apply k_bind; [k1|intros ?]). apply k_report.
        * apply k_bind; [k1|]. intros u. destruct (truthy u); [apply hs_ret; intros s Hs; split; [discriminate|exact Hs]|].
          apply k_bind; [apply k_solve|]. intros _. apply k_bind; [apply k_move|]. intros _. apply k_some, k_report.
  Qed.
  Lemma reach_fine ok s qs : nt_reach p v eps ideal nadir ok s qs -> good s /\ Forall fine qs.
  Proof.
    intros H. induction H as [|s qs q resp s' out HR IH Hq HV HA HI].
    - split; [intros i x Hx; destruct i; discriminate|repeat constructor].
    - destruct IH as [G F]. destruct q as [|z lo up e|x f]; cbn [nt_iterate] in HI.
      + unfold sbind at 1 in HI. unfold lift in HI. destruct (nt_resp resp) as [d|]; [|injection HI as <- <-; auto].
        pose proof (k_some _ (k_initial d) s G) as K. rewrite HI in K. destruct out as [[q'|]|]; [|split; [apply K|exact F]|split; [exact K|exact F]].
        destruct K as [K1 K2]. split; [exact K2|]. constructor; auto.
      + unfold sbind at 1 in HI. unfold lift in HI. destruct (nt_resp resp) as [d|]; [|injection HI as <- <-; auto].
        pose proof (k_handle d s G) as K. rewrite HI in K. destruct out as [[q'|]|]; [|split; [apply K|exact F]|split; [exact K|exact F]].
        destruct K as [K1 K2]. split; [exact K2|]. constructor; auto.
      + unfold sret in HI. injection HI as <- <-. split; [exact G|]. constructor; [|exact F]. rewrite Forall_forall in F. exact (F _ Hq).
  Qed.
End Inherit.
(** Whatever holds of every solution the optimizer returns (being within the bounds,
    satisfying constraints it was told of elsewhere, ...) holds of the solution a
    session ends with - in any history, with failing and repeated calls. *)
Theorem C67_inherited_partial :
  forall (N : NumOps) (p : nt_problem N) v eps ideal nadir ok s qs (P : list N -> Prop) x f,
  (forall w n u q x0 x, np_min p w n u q x0 = Ok x -> P x) ->
  nt_reach p v eps ideal nadir ok s qs -> In (NStop (Some x) f) qs -> P x.
Proof.
  intros N p v eps ideal nadir ok s qs P x f HM HR Hin.
  destruct (reach_fine p v eps ideal nadir P HM ok s qs HR) as [_ F]. rewrite Forall_forall in F. exact (F _ Hin).
Qed.
Print Assumptions C67_inherited_partial.
(** A session that ends: its optimizer only knows two solutions. *)
Example C67_inherited_hypotheses_met : exists s qs x f,
  (forall w n u q x0 x, np_min PropsNautilus.eA w n u q x0 = Ok x -> In x PropsNautilus.epts) /\
  nt_reach PropsNautilus.eA NV1 PropsNautilus.eEps PropsNautilus.eI PropsNautilus.eN nt_no_restart s qs /\ In (NStop (Some x) f) qs.
Proof.
  assert (E : exists s x f, PropsNautilus.e_it PropsNautilus.eA NV1 PropsNautilus.e_q3 PropsNautilus.a_keep PropsNautilus.e_s3 = (s, Ok (Some (NStop (Some x) f)))).
  { pose (stops := fun r : nt_state F64 * res (option (nt_request F64)) => match snd r with Ok (Some (NStop (Some _) _)) => true | _ => false end).
    assert (C : stops (PropsNautilus.e_it PropsNautilus.eA NV1 PropsNautilus.e_q3 PropsNautilus.a_keep PropsNautilus.e_s3) = true) by (vm_compute; reflexivity).
    revert C. generalize (PropsNautilus.e_it PropsNautilus.eA NV1 PropsNautilus.e_q3 PropsNautilus.a_keep PropsNautilus.e_s3). intros r C. unfold stops in C.
    destruct r as [s [[[| |[x|] f]|]|]]; try discriminate C. exists s, x, f. reflexivity. }
  destruct E as (s & x & f & E). exists s, (NStop (Some x) f :: [PropsNautilus.e_q3; PropsNautilus.e_q2; PropsNautilus.e_q1; NInit]), x, f.
  split; [|split; [|left; reflexivity]].
  - intros w n u q x0 y H. cbn [PropsNautilus.eA PropsNautilus.eP np_min] in H. unfold PropsNautilus.best, PropsNautilus.or_first in H.
    destruct (MAsf.rp_disc _ w n u PropsNautilus.epts q) as [i|]; cbn [rbind] in H; [|injection H as <-; left; reflexivity].
    destruct (at_ PropsNautilus.epts i) as [r|] eqn:Er; injection H as <-; [|left; reflexivity]. apply at_ok in Er. eapply nth_error_In; eauto.
  - eapply (nt_reach_step PropsNautilus.eA NV1 PropsNautilus.eEps PropsNautilus.eI PropsNautilus.eN nt_no_restart PropsNautilus.e_s3 _ PropsNautilus.e_q3 (Some PropsNautilus.a_keep) s (Ok (Some (NStop (Some x) f))));
      [eapply PropsNautilus.path_reach; exact PropsNautilus.e_path3|left; reflexivity|intros d Ed; injection Ed as <-; vm_compute; reflexivity| |exact E].
    intros Ei. exfalso. revert Ei. apply PropsNautilus.not_init. vm_compute. reflexivity.
Qed.

(** ** C58: what perturbate does *)
(** The noise is added to the outcomes as given (never to a perturbed version, so
    repeated calls do not accumulate) and stored apart; the outcomes stay. *)
Theorem C58_perturbate_partial :
  forall (N : NumOps) (o : MPaint.pt_obj N) noises noise i j r n x y,
  let o' := MPaint.pt_perturbate noise (fold_left (fun o n => MPaint.pt_perturbate n o) noises o) in
  MPaint.po_outcomes o' = MPaint.po_outcomes o /\
  (nth_error (MPaint.po_outcomes o) i = Some r -> nth_error noise i = Some n -> nth_error r j = Some x -> nth_error n j = Some y ->
   exists m r', MPaint.po_hidden o' = Some m /\ nth_error m i = Some r' /\ nth_error r' j = Some (nadd x y)).
Proof.
  intros N o noises noise i j r n x y o'.
  assert (E : forall l (o : MPaint.pt_obj N), MPaint.po_outcomes (fold_left (fun o n => MPaint.pt_perturbate n o) l o) = MPaint.po_outcomes o).
  { clear. induction l as [|a l IH]; intros o0; cbn [fold_left]; [reflexivity|]. rewrite IH. reflexivity. }
  split; [apply (E (noises ++ [noise])%list o) || (subst o'; cbn [MPaint.pt_perturbate MPaint.po_outcomes]; apply E)|].
  intros Hr Hn Hx Hy. subst o'. cbn [MPaint.pt_perturbate MPaint.po_hidden]. rewrite E.
  assert (Z : forall A B C (g : A -> B -> C) l m i a b, nth_error l i = Some a -> nth_error m i = Some b -> nth_error (zipw g l m) i = Some (g a b)).
  { clear. intros A B C g l. induction l as [|a l IH]; intros m i x y; [destruct i; discriminate|]. destruct m as [|b m]; [destruct i; discriminate|].
    destruct i; cbn; [congruence|eauto]. }
  eexists _, _. split; [reflexivity|]. split; [apply Z; eassumption|]. apply Z; assumption.
Qed.
Print Assumptions C58_perturbate_partial.
