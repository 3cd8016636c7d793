(** * Properties of PAINT (C56-C58, C80-C83). *)
From Coq Require Import ZArith List Bool Lia Reals Lra Floats Permutation Sorted ClassicalEpsilon.
From Verif Require Import Num NumXR NumF64 Py Np Spec NpFacts XRFacts PAsf MRpm MParetoNav SParetoNav PLp PParetoNav6 MPaint SPaint PPaint PPaint2.
Import ListNotations.
Open Scope R_scope.

Lemma approx_run {N : NumOps} {Cfg} (e : pt_env N Cfg) cfg given o P : uses given o P -> pt_approximate e cfg given o = pt_run e cfg P.
Proof. intros [->|(-> & <-)]; reflexivity. Qed.

(** ** C56: what the approximation consists of *)
(** Some of the generated polytopes (each at most as often as it was generated);
    every one passes Rule 1, with the given settings; and between any two of them
    neither test of Rule 2 (with the default settings) finds dominance. *)
Theorem C56_selected :
  forall (N : NumOps) (Cfg : Type) (e : pt_env N Cfg) cfg given o P G R0,
  uses given o P -> generates e P G -> pt_approximate e cfg given o = Ok R0 ->
  (exists rest, Permutation G (R0 ++ rest)) /\
  (forall r, In r R0 -> exists v, vertices P r v /\ passes e cfg P v) /\
  (forall i j a b v w, i <> j -> nth_error R0 i = Some a -> nth_error R0 j = Some b -> vertices P a v -> vertices P b w ->
     pt_dominates e (Polytope v) (Polytope w) None = Ok false).
Proof.
  intros N Cfg e cfg given o P G R0 HU HG H. rewrite (approx_run _ _ _ _ _ HU) in H.
  destruct (run_spec e cfg P G R0 HG H) as (X & K & T & HP & HX & HK & HP2 & HS & HR).
  destruct (greedy_rest e P T R0 HR HS) as (Y & HY & _).
  split; [|split].
  - exists (Y ++ X). rewrite HP, HP2, HY. rewrite (app_assoc R0 Y X). apply Permutation_app_comm.
  - intros r Hr. apply (greedy_In e P T R0 r HR) in Hr. rewrite <- HP2 in Hr. rewrite Forall_forall in HK. exact (HK r Hr).
  - intros i j a b v w Hij Ea Eb Hv Hw. destruct (greedy_apart e P T R0 HR i j a b Hij Ea Eb) as (v' & w' & Hv' & Hw' & Hap & _).
    rewrite (vertices_fun P a v v' Hv Hv'), (vertices_fun P b w w' Hw Hw'). exact Hap.
Qed.
Print Assumptions C56_selected.
(** Refuted for the tests with the settings that were given: whatever they would say
    between two polytopes, the result is the same. *)
Theorem C56_settings_refuted :
  forall (N : NumOps) (Cfg : Type) (e e' : pt_env N Cfg) cfg given o,
  (forall P, pt_delaunay e P = pt_delaunay e' P) -> (forall S, pt_generate e S = pt_generate e' S) ->
  (forall v, pt_inherent e v (Some cfg) = pt_inherent e' v (Some cfg)) ->
  (forall p v, pt_dominates e (Outcome p) (Polytope v) (Some cfg) = pt_dominates e' (Outcome p) (Polytope v) (Some cfg) /\
               pt_dominates e (Polytope v) (Outcome p) (Some cfg) = pt_dominates e' (Polytope v) (Outcome p) (Some cfg)) ->
  (forall v w, pt_dominates e (Polytope v) (Polytope w) None = pt_dominates e' (Polytope v) (Polytope w) None) ->
  pt_approximate e cfg given o = pt_approximate e' cfg given o.
Proof. intros. unfold pt_approximate. apply run_ext; auto. Qed.
Print Assumptions C56_settings_refuted.

(** ** C57: nothing is removed without a reason *)
(** Every generated polytope that is not in the result failed Rule 1, or is in
    conflict (by the default tests) with a polytope of the result. *)
Theorem C57_reason :
  forall (N : NumOps) (Cfg : Type) (e : pt_env N Cfg) cfg given o P G R0,
  uses given o P -> generates e P G -> pt_approximate e cfg given o = Ok R0 ->
  exists rest, Permutation G (R0 ++ rest) /\
    forall x, In x rest -> exists v, vertices P x v /\
      (fails e cfg P v \/ exists r w, In r R0 /\ vertices P r w /\ clash e v w).
Proof.
  intros N Cfg e cfg given o P G R0 HU HG H. rewrite (approx_run _ _ _ _ _ HU) in H.
  destruct (run_spec e cfg P G R0 HG H) as (X & K & T & HP & HX & HK & HP2 & HS & HR).
  destruct (greedy_rest e P T R0 HR HS) as (Y & HY & HYc).
  exists (Y ++ X). split; [rewrite HP, HP2, HY; rewrite (app_assoc R0 Y X); apply Permutation_app_comm|].
  intros x Hx. apply in_app_or in Hx. rewrite Forall_forall in HYc, HX. destruct Hx as [Hx|Hx].
  - destruct (HYc x Hx) as (r & Hr & (v & w & Hv & Hw & Hc) & _). exists v. split; [exact Hv|]. right. exists r, w. auto.
  - destruct (HX x Hx) as (v & Hv & Hf). exists v. auto.
Qed.
Print Assumptions C57_reason.

(** ** C80: the order of the result, and which of two polytopes survives *)
(** The result is in the order of sort_wrt_entries; a polytope that passes Rule 1 is
    removed only in favour of one that does not come before it in that order, so of
    one with at least as many different vertices. *)
Theorem C80_order :
  forall (N : NumOps) (Cfg : Type) (e : pt_env N Cfg) cfg given o P G R0,
  uses given o P -> generates e P G -> pt_approximate e cfg given o = Ok R0 ->
  (forall i j a b, (i < j)%nat -> nth_error R0 i = Some a -> nth_error R0 j = Some b -> not_after a b) /\
  (forall x v, In x G -> ~ In x R0 -> vertices P x v -> passes e cfg P v ->
     exists r w nx nr, In r R0 /\ vertices P r w /\ clash e v w /\ not_after x r /\ distinct x nx /\ distinct r nr /\ (nx <= nr)%nat).
Proof.
  intros N Cfg e cfg given o P G R0 HU HG H. rewrite (approx_run _ _ _ _ _ HU) in H.
  destruct (run_spec e cfg P G R0 HG H) as (X & K & T & HP & HX & HK & HP2 & HS & HR).
  destruct (greedy_rest e P T R0 HR HS) as (Y & HY & HYc). split.
  - pose proof (greedy_sorted e P T R0 HR HS) as HS2. clear - HS2. induction HS2 as [|a R0 HS2 IH HF]; [intros [|i] j a b _ E; discriminate|].
    rewrite Forall_forall in HF. intros [|i] [|j] x y Hij Ex Ey; cbn in Ex, Ey; try lia.
    + injection Ex as <-. apply key_le_not_after. apply HF. eapply nth_error_In; exact Ey.
    + apply (IH i j); [lia|assumption|assumption].
  - intros x v Hx Hn Hv Hp. rewrite HP in Hx. apply in_app_or in Hx. rewrite Forall_forall in HX, HYc. destruct Hx as [Hx|Hx].
    + exfalso. destruct (HX x Hx) as (v' & Hv' & Hf). rewrite (vertices_fun P x v' v Hv' Hv) in Hf. destruct Hp as (Hp1 & Hp2).
      destruct Hf as [Hf|(q & Hq & [Hf|Hf])]; [congruence| |]; destruct (Hp2 q Hq); congruence.
    + rewrite HP2, HY in Hx. apply in_app_or in Hx. destruct Hx as [Hx|Hx]; [contradiction|].
      destruct (HYc x Hx) as (r & Hr & (v' & w & Hv' & Hw & Hc) & Hk). rewrite (vertices_fun P x v' v Hv' Hv) in Hc.
      exists r, w, (row_count x), (row_count r). split; [exact Hr|]. split; [exact Hw|]. split; [exact Hc|]. split; [apply key_le_not_after; exact Hk|].
      split; [apply distinct_row_count|]. split; [apply distinct_row_count|]. apply key_le_iff in Hk. lia.
Qed.
Print Assumptions C80_order.

(** ** C58: perturbate *)
(** Refuted: perturbing, any number of times, has no effect on what approximate does. *)
Theorem C58_perturbed_refuted :
  forall (N : NumOps) (Cfg : Type) (e : pt_env N Cfg) cfg given o noises,
  pt_approximate e cfg given (fold_left (fun o n => pt_perturbate n o) noises o) = pt_approximate e cfg given o.
Proof.
  intros N Cfg e cfg given o noises. revert o. induction noises as [|n l IH]; intros o; cbn [fold_left]; [reflexivity|]. rewrite IH. reflexivity.
Qed.
Print Assumptions C58_perturbed_refuted.
(** So following the advice of the exception does not help: approximate raises again. *)
Theorem C58_advice_refuted :
  forall (N : NumOps) (Cfg : Type) (e : pt_env N Cfg) cfg o noises,
  pt_delaunay e (po_outcomes o) = TriQhull ->
  pt_approximate e cfg None o = Raise MethodExn /\
  pt_approximate e cfg None (fold_left (fun o n => pt_perturbate n o) noises o) = Raise MethodExn.
Proof.
  intros N Cfg e cfg o noises H. rewrite C58_perturbed_refuted. assert (E : pt_approximate e cfg None o = Raise MethodExn); [|auto].
  unfold pt_approximate, pt_run. rewrite H. reflexivity.
Qed.
Print Assumptions C58_advice_refuted.

(** ** C81-C82: with exact tests, over the reals *)
(** If no outcome dominates another, every outcome whose polytope (its index,
    repeated) is generated is in the approximation. *)
Theorem C81_outcomes_kept :
  forall (Cfg : Type) k (e : pt_env XR Cfg) cfg given o P G R0 j m,
  uses given o (xm P) -> generates e (xm P) G -> pt_exact k e -> Forall (fun p => length p = k) P ->
  (forall p q, In p P -> In q P -> ~ rdom p q) ->
  pt_approximate e cfg given o = Ok R0 ->
  In (repeat (Z.of_nat j) (S m)) G -> In (repeat (Z.of_nat j) (S m)) R0.
Proof.
  intros Cfg k e cfg given o P G R0 j m HU HG HE HM HN H Hj.
  assert (Hok : row_ok (xm P) (repeat (Z.of_nat j) (S m))) by (destruct HG as (S0 & _ & _ & HG); rewrite Forall_forall in HG; apply HG; exact Hj).
  assert (Hjl : (j < length P)%nat).
  { destruct Hok as (_ & Hok). inversion Hok as [|? ? Hz _]; subst. unfold xm in Hz. rewrite map_length in Hz. lia. }
  destruct (nth_error P j) as [p|] eqn:Ep; [|apply nth_error_None in Ep; lia].
  assert (Hp : In p P) by (eapply nth_error_In; exact Ep).
  assert (Lp : length p = k) by (rewrite Forall_forall in HM; apply HM; exact Hp).
  assert (Hv : vertices (xm P) (repeat (Z.of_nat j) (S m)) (xm (repeat p (S m)))).
  { rewrite xm_repeat. apply vertices_repeat. unfold xm. rewrite nth_error_map, Ep. reflexivity. }
  assert (Hne : repeat p (S m) <> []) by discriminate.
  assert (Hpass : passes e cfg (xm P) (xm (repeat p (S m)))).
  { split.
    - destruct (proj1 HE (repeat p (S m)) (Some cfg) Hne) as [(E & _)|(_ & x & y & Hx & Hy & Hd)]; [exact E|exfalso].
      apply hull_same in Hx; [|exact Lp]. apply hull_same in Hy; [|exact Lp]. rewrite Hx, Hy in Hd. exact (rdom_irrefl p Hd).
    - intros q Hq. unfold xm in Hq. apply in_map_iff in Hq. destruct Hq as (q' & <- & Hq'). assert (Lq : length q' = k) by (rewrite Forall_forall in HM; apply HM; exact Hq').
      split.
      + destruct (proj2 HE (Outcome (xv q')) (Polytope (xm (repeat p (S m)))) [q'] (repeat p (S m)) (Some cfg) (points_out q') eq_refl ltac:(discriminate) Hne) as [(_ & x & y & Hx & Hy & Hd)|(E & _)]; [exfalso|exact E].
        apply hull_single in Hx; [|exact Lq]. apply hull_same in Hy; [|exact Lp]. rewrite Hx, Hy in Hd. exact (HN q' p Hq' Hp Hd).
      + destruct (proj2 HE (Polytope (xm (repeat p (S m)))) (Outcome (xv q')) (repeat p (S m)) [q'] (Some cfg) eq_refl (points_out q') Hne ltac:(discriminate)) as [(_ & x & y & Hx & Hy & Hd)|(E & _)]; [exfalso|exact E].
        apply hull_single in Hy; [|exact Lq]. apply hull_same in Hx; [|exact Lp]. rewrite Hx, Hy in Hd. exact (HN p q' Hp Hq' Hd). }
  destruct (in_dec (list_eq_dec Z.eq_dec) (repeat (Z.of_nat j) (S m)) R0) as [Hin|Hn]; [exact Hin|exfalso].
  destruct (C80_order XR Cfg e cfg given o (xm P) G R0 HU HG H) as (_ & HO).
  destruct (HO _ _ Hj Hn Hv Hpass) as (r & w & _ & _ & Hr & Hw & Hc & _).
  destruct (C56_selected XR Cfg e cfg given o (xm P) G R0 HU HG H) as (_ & HS & _). destruct (HS r Hr) as (w' & Hw' & Hps).
  rewrite (vertices_fun _ r w' w Hw' Hw) in Hps. destruct (vertices_real P r w Hw) as (wr & -> & HF & Hwn).
  assert (Hrn : wr <> []).
  { apply Hwn. intros ->. destruct (C56_selected XR Cfg e cfg given o (xm P) G R0 HU HG H) as ((rest & HPm) & _).
    destruct HG as (S0 & _ & _ & HG). rewrite Forall_forall in HG. destruct (HG []) as (X & _); [rewrite HPm; apply in_or_app; left; exact Hr|congruence]. }
  destruct Hc as [Hc|Hc].
  - destruct (exact_dom_true k e HE _ _ (repeat p (S m)) wr _ (eq_refl : pt_points (Polytope (xm (repeat p (S m)))) (repeat p (S m))) (eq_refl : pt_points (Polytope (xm wr)) wr) Hne Hrn Hc) as (x & y & Hx & Hy & Hd).
    apply hull_same in Hx; [|exact Lp]. subst x. exact (proj1 (passes_out k e cfg P HE wr p HM Hrn Hps Hp y Hy) Hd).
  - destruct (exact_dom_true k e HE _ _ wr (repeat p (S m)) _ (eq_refl : pt_points (Polytope (xm wr)) wr) (eq_refl : pt_points (Polytope (xm (repeat p (S m)))) (repeat p (S m))) Hrn Hne Hc) as (x & y & Hx & Hy & Hd).
    apply hull_same in Hy; [|exact Lp]. subst y. exact (proj2 (passes_out k e cfg P HE wr p HM Hrn Hps Hp x Hx) Hd).
Qed.
Print Assumptions C81_outcomes_kept.

(** No point of the approximation (the union of the convex hulls) dominates another
    one, and none dominates or is dominated by an outcome. *)
Theorem C82_inherently_nondominated :
  forall (Cfg : Type) k (e : pt_env XR Cfg) cfg given o P G R0,
  uses given o (xm P) -> generates e (xm P) G -> pt_exact k e -> Forall (fun p => length p = k) P ->
  pt_approximate e cfg given o = Ok R0 ->
  (forall p q, in_union k P R0 p -> in_union k P R0 q -> ~ rdom p q) /\
  (forall p q, in_union k P R0 p -> In q P -> ~ rdom p q /\ ~ rdom q p).
Proof.
  intros Cfg k e cfg given o P G R0 HU HG HE HM H.
  destruct (C56_selected XR Cfg e cfg given o (xm P) G R0 HU HG H) as ((rest & HPm) & HS & HA).
  assert (Hne : forall r v, In r R0 -> vertices (xm P) r (xm v) -> v <> []).
  { intros r v Hr Hv ->. inversion Hv. subst r. destruct HG as (S0 & _ & _ & HG). rewrite Forall_forall in HG. destruct (HG []) as (X & _); [rewrite HPm; apply in_or_app; left; exact Hr|congruence]. }
  assert (Hpass : forall r v, In r R0 -> vertices (xm P) r (xm v) -> passes e cfg (xm P) (xm v)).
  { intros r v Hr Hv. destruct (HS r Hr) as (v' & Hv' & Hps). rewrite (vertices_fun _ r _ _ Hv Hv'). exact Hps. }
  split.
  - intros p q (r1 & v1 & Hr1 & Hv1 & Hp) (r2 & v2 & Hr2 & Hv2 & Hq).
    destruct (In_nth_error _ _ Hr1) as (i & Ei). destruct (In_nth_error _ _ Hr2) as (j & Ej).
    destruct (Nat.eq_dec i j) as [->|Hij].
    + assert (r1 = r2) by congruence. subst r2. pose proof (vertices_fun _ _ _ _ Hv1 Hv2) as E. apply xm_inj in E. subst v2.
      apply (passes_nd k e cfg P HE v1 (Hne _ _ Hr1 Hv1) (Hpass _ _ Hr1 Hv1)); assumption.
    + apply (exact_dom_false k e HE _ _ v1 v2 None (eq_refl : pt_points (Polytope (xm v1)) v1) (eq_refl : pt_points (Polytope (xm v2)) v2) (Hne _ _ Hr1 Hv1) (Hne _ _ Hr2 Hv2)); [|assumption|assumption].
      apply (HA i j r1 r2); assumption.
  - intros p q (r & v & Hr & Hv & Hp) Hq. destruct (passes_out k e cfg P HE v q HM (Hne _ _ Hr Hv) (Hpass _ _ Hr Hv) Hq p Hp) as (A & B). auto.
Qed.
Print Assumptions C82_inherently_nondominated.

(** It is maximal: for every generated polytope that is not in it, one of its points
    dominates or is dominated by a point of the polytope itself, of the approximation
    or an outcome. *)
Theorem C82_maximal :
  forall (Cfg : Type) k (e : pt_env XR Cfg) cfg given o P G R0 x v,
  uses given o (xm P) -> generates e (xm P) G -> pt_exact k e -> Forall (fun p => length p = k) P ->
  pt_approximate e cfg given o = Ok R0 ->
  In x G -> ~ In x R0 -> vertices (xm P) x (xm v) ->
  exists p q, in_hull k v p /\ (in_hull k v q \/ in_union k P R0 q \/ In q P) /\ (rdom p q \/ rdom q p).
Proof.
  intros Cfg k e cfg given o P G R0 x v HU HG HE HM H Hx Hn Hv.
  destruct (C57_reason XR Cfg e cfg given o (xm P) G R0 HU HG H) as (rest & HPm & HR).
  assert (Hok : forall r, In r G -> r <> []) by (intros r Hr; destruct HG as (S0 & _ & _ & HG); rewrite Forall_forall in HG; apply (HG r Hr)).
  assert (Hvn : v <> []) by (intros ->; inversion Hv; subst x; exact (Hok [] Hx eq_refl)).
  assert (Hxr : In x rest) by (rewrite HPm in Hx; apply in_app_or in Hx; destruct Hx; [contradiction|assumption]).
  destruct (HR x Hxr) as (v' & Hv' & Hf). rewrite (vertices_fun _ x _ _ Hv' Hv) in Hf.
  destruct Hf as [[Hf|(q & Hq & Hf)]|(r & w & Hr & Hw & Hc)].
  - destruct (proj1 HE v (Some cfg) Hvn) as [(E & _)|(_ & p & q & Hp & Hq & Hd)]; [congruence|]. exists p, q. auto.
  - unfold xm in Hq. apply in_map_iff in Hq. destruct Hq as (q' & <- & Hq'). assert (Lq : length q' = k) by (rewrite Forall_forall in HM; apply HM; exact Hq').
    destruct Hf as [Hf|Hf].
    + destruct (exact_dom_true k e HE _ _ [q'] v _ (points_out q') (eq_refl : pt_points (Polytope (xm v)) v) ltac:(discriminate) Hvn Hf) as (a & b & Ha & Hb & Hd).
      apply hull_single in Ha; [|exact Lq]. subst a. exists b, q'. auto.
    + destruct (exact_dom_true k e HE _ _ v [q'] _ (eq_refl : pt_points (Polytope (xm v)) v) (points_out q') Hvn ltac:(discriminate) Hf) as (a & b & Ha & Hb & Hd).
      apply hull_single in Hb; [|exact Lq]. subst b. exists a, q'. auto.
  - destruct (vertices_real P r w Hw) as (wr & -> & _ & Hwn). assert (Hrn : wr <> []) by (apply Hwn, Hok; rewrite HPm; apply in_or_app; left; exact Hr).
    destruct Hc as [Hc|Hc].
    + destruct (exact_dom_true k e HE _ _ v wr _ (eq_refl : pt_points (Polytope (xm v)) v) (eq_refl : pt_points (Polytope (xm wr)) wr) Hvn Hrn Hc) as (a & b & Ha & Hb & Hd).
      exists a, b. split; [exact Ha|]. split; [|auto]. right. left. exists r, wr. auto.
    + destruct (exact_dom_true k e HE _ _ wr v _ (eq_refl : pt_points (Polytope (xm wr)) wr) (eq_refl : pt_points (Polytope (xm v)) v) Hrn Hvn Hc) as (a & b & Ha & Hb & Hd).
      exists b, a. split; [exact Hb|]. split; [|auto]. right. left. exists r, wr. auto.
Qed.
Print Assumptions C82_maximal.

(** ** C83: exceptions *)
(** The constructor raises PAINTException iff there are not more outcomes than
    objectives, and otherwise keeps the outcomes. *)
Theorem C83_constructor :
  forall (N : NumOps) (m : list (list N)) k, m <> [] -> Forall (fun r => length r = k) m ->
  if Nat.leb (length m) k then pt_ctor m = Raise MethodExn else exists o, pt_ctor m = Ok o /\ po_outcomes o = m.
Proof.
  intros N m k Hm HF. destruct m as [|r m]; [congruence|]. inversion HF as [|? ? Hr _]; subst. unfold pt_ctor. cbn [hd].
  destruct (Nat.leb (length (r :: m)) (length r)); eauto.
Qed.
Print Assumptions C83_constructor.
(** approximate raises PAINTException if the triangulation fails, and returns if the
    triangulation succeeds and the tests return. *)
Theorem C83_approximate :
  forall (N : NumOps) (Cfg : Type) (e : pt_env N Cfg) cfg given o P,
  uses given o P ->
  (pt_delaunay e P = TriQhull -> pt_approximate e cfg given o = Raise MethodExn) /\
  (forall G, generates e P G -> pt_answers e -> exists R0, pt_approximate e cfg given o = Ok R0).
Proof.
  intros N Cfg e cfg given o P HU. rewrite (approx_run e cfg given o P HU). split.
  - intros H. unfold pt_run. rewrite H. reflexivity.
  - intros G HG HT. exact (run_total e cfg P HT G HG).
Qed.
Print Assumptions C83_approximate.

(** ** Concrete cases *)
(** Three outcomes in the plane, all faces of their triangle, exact tests: the three
    outcomes are kept, the edge between the outer ones is not (its midpoint is
    dominated by the third outcome). *)
Definition ex_P : list (list R) := [[0; 2]; [1; 1/2]; [2; 0]].
Definition ex_G : list (list Z) := [[0; 0; 0]; [1; 1; 1]; [2; 2; 2]; [0; 1; 0]; [0; 2; 0]; [1; 2; 1]; [0; 1; 2]]%Z.
Definition ex_env : pt_env XR unit :=
  MkPT (fun _ => TriOk [[0; 1; 2]%Z]) (fun _ => Ok ex_G)
    (fun m _ => if excluded_middle_informative (exists v p q, m = xm v /\ in_hull 2 v p /\ in_hull 2 v q /\ rdom p q) then Ok false else Ok true)
    (fun a b _ => if excluded_middle_informative (exists v w p q, pt_points a v /\ pt_points b w /\ in_hull 2 v p /\ in_hull 2 w q /\ rdom p q) then Ok true else Ok false).
Lemma points_inj a v w : pt_points a v -> pt_points a w -> v = w.
Proof.
  destruct a as [o|m]; cbn.
  - intros (p & -> & ->) (q & E & ->). apply xv_inj in E. subst. reflexivity.
  - intros -> E. apply xm_inj in E. exact E.
Qed.
Lemma ex_exact : pt_exact 2 ex_env.
Proof.
  split.
  - intros v c Hv. cbn [pt_inherent ex_env]. destruct (excluded_middle_informative _) as [E|E].
    + right. split; [reflexivity|]. destruct E as (v' & p & q & E & H). apply xm_inj in E. subst. eauto.
    + left. split; [reflexivity|]. intros p q Hp Hq Hd. apply E. exists v, p, q. auto.
  - intros a b v w c Ha Hb Hv Hw. cbn [pt_dominates ex_env]. destruct (excluded_middle_informative _) as [E|E].
    + left. split; [reflexivity|]. destruct E as (v' & w' & p & q & Ha' & Hb' & H). rewrite (points_inj _ _ _ Ha Ha'), (points_inj _ _ _ Hb Hb'). eauto.
    + right. split; [reflexivity|]. intros p q Hp Hq Hd. apply E. exists v, w, p, q. auto.
Qed.
Lemma ex_answers : pt_answers ex_env.
Proof.
  split; intros; cbn [pt_inherent pt_dominates ex_env]; destruct (excluded_middle_informative _); eauto.
Qed.
Lemma ex_nd p q : In p ex_P -> In q ex_P -> ~ rdom p q.
Proof.
  intros Hp Hq (H1 & H2). destruct Hp as [<-|[<-|[<-|[]]]], Hq as [<-|[<-|[<-|[]]]];
    try (apply H2; exact H1); exfalso; inversion H1 as [|? ? ? ? A1 A2]; subst; inversion A2 as [|? ? ? ? A3 A4]; subst; lra.
Qed.
Example C56_hypotheses_met : exists o R0,
  pt_ctor (xm ex_P : list (list XR)) = Ok o /\ uses None o (xm ex_P) /\ generates ex_env (xm ex_P) ex_G /\ pt_exact 2 ex_env /\ pt_answers ex_env /\
  Forall (fun p => length p = 2%nat) ex_P /\ (forall p q, In p ex_P -> In q ex_P -> ~ rdom p q) /\
  pt_approximate ex_env tt None o = Ok R0 /\
  In [0; 0; 0]%Z R0 /\ In [1; 1; 1]%Z R0 /\ In [2; 2; 2]%Z R0 /\ ~ In [0; 2; 0]%Z R0 /\ vertices (xm ex_P) [0; 2; 0]%Z (xm [[0; 2]; [2; 0]; [0; 2]]).
Proof.
  exists (MkPO (xm ex_P) None).
  assert (HU : uses None (MkPO (xm ex_P : list (list XR)) None) (xm ex_P)) by (right; split; reflexivity).
  assert (HG : generates ex_env (xm ex_P) ex_G).
  { exists [[0; 1; 2]%Z]. split; [reflexivity|]. split; [reflexivity|]. unfold ex_G, row_ok. repeat constructor; try discriminate; cbn; lia. }
  assert (HM : Forall (fun p => length p = 2%nat) ex_P) by (repeat constructor).
  destruct (proj2 (C83_approximate XR unit ex_env tt None _ (xm ex_P) HU) ex_G HG ex_answers) as (R0 & HR). exists R0.
  assert (HV : vertices (xm ex_P) [0; 2; 0]%Z (xm [[0; 2]; [2; 0]; [0; 2]])).
  { unfold vertices. repeat constructor; lia. }
  split; [reflexivity|]. split; [exact HU|]. split; [exact HG|]. split; [exact ex_exact|]. split; [exact ex_answers|]. split; [exact HM|]. split; [exact ex_nd|]. split; [exact HR|].
  split; [apply (C81_outcomes_kept unit 2 ex_env tt None _ ex_P ex_G R0 0 2 HU HG ex_exact HM ex_nd HR); cbn; tauto|].
  split; [apply (C81_outcomes_kept unit 2 ex_env tt None _ ex_P ex_G R0 1 2 HU HG ex_exact HM ex_nd HR); cbn; tauto|].
  split; [apply (C81_outcomes_kept unit 2 ex_env tt None _ ex_P ex_G R0 2 2 HU HG ex_exact HM ex_nd HR); cbn; tauto|].
  split; [|exact HV]. intros Hin.
  destruct (C82_inherently_nondominated unit 2 ex_env tt None _ ex_P ex_G R0 HU HG ex_exact HM HR) as (_ & H).
  destruct (H [1; 1] [1; 1/2]) as (_ & H2).
  - exists [0; 2; 0]%Z, [[0; 2]; [2; 0]; [0; 2]]. split; [exact Hin|]. split; [exact HV|]. exists [1/2; 1/2; 0]. split; [reflexivity|].
    split; [repeat constructor; lra|]. split; [cbn; lra|]. cbn. f_equal; [lra|f_equal; lra].
  - right. left. reflexivity.
  - apply H2. split; [unfold rvle; repeat constructor; lra|]. intros A. inversion A as [|? ? ? ? A1 A2]; subst. inversion A2 as [|? ? ? ? A3 A4]; subst. lra.
Qed.

(** Rule 2 at work, with IEEE doubles: the two edges clash and the one that comes
    first in the order is removed. *)
Definition ex_pts : list (list F64) := [[1]; [2]; [3]; [4]]%float.
Definition ex_env2 : pt_env F64 unit :=
  MkPT (fun _ => TriOk [[0; 1]; [2; 3]]%Z) (fun _ => Ok [[0; 1]; [2; 3]; [0; 0]; [1; 1]; [2; 2]; [3; 3]]%Z)
    (fun _ _ => Ok true)
    (fun a b _ => match a, b with Polytope [[x]; [x']], Polytope [[y]; [y']] => Ok (@neqb F64 x 1%float && @neqb F64 x' 2%float && @neqb F64 y 3%float && @neqb F64 y' 4%float) | _, _ => Ok false end).
Example C57_hypotheses_met :
  uses None (MkPO ex_pts None) ex_pts /\ generates ex_env2 ex_pts [[0; 1]; [2; 3]; [0; 0]; [1; 1]; [2; 2]; [3; 3]]%Z /\
  pt_approximate ex_env2 tt None (MkPO ex_pts None) = Ok [[0; 0]; [1; 1]; [2; 2]; [3; 3]; [2; 3]]%Z /\
  (exists v w, vertices ex_pts [0; 1]%Z v /\ vertices ex_pts [2; 3]%Z w /\ passes ex_env2 tt ex_pts v /\ clash ex_env2 v w).
Proof.
  split; [right; split; reflexivity|]. split; [|split; [vm_compute; reflexivity|]].
  - eexists. split; [reflexivity|]. split; [reflexivity|]. unfold row_ok. repeat constructor; try discriminate; cbn; lia.
  - exists [[1]; [2]]%float, [[3]; [4]]%float. split; [unfold vertices; repeat constructor; lia|]. split; [unfold vertices; repeat constructor; lia|].
    split; [|left; vm_compute; reflexivity]. split; [reflexivity|]. intros p _. split; [reflexivity|destruct p; reflexivity].
Qed.
