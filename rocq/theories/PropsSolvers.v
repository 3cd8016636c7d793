(** * Properties of the solvers of desdeo_mcdm/utilities/solvers.py (C59, C60, C84-C90). *)
From Coq Require Import String.
From Coq Require Import ZArith List Bool Lia Reals Lra Floats Sorted ClassicalEpsilon.
From Verif Require Import Num NumXR NumF64 Py Np Spec NpFacts XRFacts MNavigator PNavigator6 MRpm MParetoNav MSolvers SSolvers PSolvers PSolvers2 PSolvers3 F64Sums.
Import ListNotations.
Open Scope R_scope.

(** ** C84: the weighted scalarizer *)
(** With the weights that select the i-th objective the scalarized value is that
    objective, exactly, whatever the other (finite) values are. *)
Theorem C84_selects_objective :
  forall k i (f ws : list R) v, length f = k -> nth_error f i = Some v -> selects (N:=XR) k i (xv ws) ->
  sv_weighted (xv f : list XR) (xv ws) = Ok (Fin v : XR).
Proof.
  intros k i f ws v Hl Hv Hs.
  destruct (sl_sel XR sel_xr k i (xv f) (xv ws) (Fin v : XR)) as (r & Hr & Hq).
  - rewrite xv_length. exact Hl.
  - rewrite xv_nth, Hv. reflexivity.
  - apply Forall_forall. intros x Hx. apply in_map_iff in Hx. destruct Hx as (y & <- & _). apply xfinite_iff. eauto.
  - exact Hs.
  - rewrite Hr. f_equal. rewrite (ol_eqb XR XR_ord) in Hq. apply andb_true_iff in Hq. destruct Hq as [H1 H2].
    destruct r as [| | |r]; try discriminate. apply xleb_fin in H1. apply xleb_fin in H2. f_equal. lra.
Qed.
Print Assumptions C84_selects_objective.
(** The same for doubles: equal as numbers ([-0.0] may become [0.0]). *)
Theorem C84_selects_objective_f64 :
  forall k i (f ws : list F64) v, length f = k -> nth_error f i = Some v -> Forall nfinite f -> selects k i ws ->
  exists r, sv_weighted f ws = Ok r /\ neqb r v = true.
Proof. exact (sl_sel F64 sel_f64). Qed.
Print Assumptions C84_selects_objective_f64.
(** Refuted when another objective is infinite (or NaN): the value is NaN. *)
Theorem C84_infinite_refuted :
  (forall k i j (f ws : list XR) v, length f = k -> nth_error f j = Some v -> j <> i -> ~ nfinite v -> selects k i ws ->
     exists r, sv_weighted f ws = Ok r /\ nisnan r = true) /\
  (forall k i j (f ws : list F64) v, length f = k -> nth_error f j = Some v -> j <> i -> ~ nfinite v -> selects k i ws ->
     exists r, sv_weighted f ws = Ok r /\ nisnan r = true).
Proof. split; [exact (sl_nan XR sel_xr)|exact (sl_nan F64 sel_f64)]. Qed.
Print Assumptions C84_infinite_refuted.

(** ** C59: the payoff table *)
Section Table.
  Context {N : NumOps} (L : OrdLaws N).
  Notation vec := (list N).
  (** The table is what the objectives are at the answers of the solver. *)
  Lemma payoff_rows (e : sv_env N) eval n bounds constr guess method id nd :
    (1 <= n)%nat -> (forall x, length (eval x) = n) -> sv_payoff e eval n bounds constr guess method = Ok (id, nd) ->
    exists X, length X = n /\ length id = n /\ length nd = n /\
      (forall i x, nth_error X i = Some x -> exists ok, row_answer e eval n bounds constr method (match guess with Some g => g | None => map fst bounds end) i x ok) /\
      (forall i x, nth_error X i = Some x -> nth_error id i = nth_error (eval x) i) /\
      np_max0 (map eval X) = Ok nd.
  Proof.
    intros Hn Hl H. destruct (payoff_table e eval n bounds constr guess method id nd H) as (X & T & HX & HT & HM & HA & HB & HI & HD & HN).
    assert (ET : T = map eval X).
    { apply nth_error_ext. intros i. rewrite nth_error_map. destruct (nth_error X i) as [x|] eqn:Ex.
      - destruct (nth_error T i) as [r|] eqn:Er.
        + specialize (HB i x r Ex Er). rewrite (bc_row_same n _ (Hl x)) in HB. cbn. congruence.
        + apply nth_error_None in Er. assert (i < length X)%nat by (apply nth_error_Some; congruence). lia.
      - cbn. apply nth_error_None in Ex. apply nth_error_None. lia. }
    destruct HN as [(E0 & _)|HN]; [lia|]. exists X. split; [exact HX|]. split; [exact HI|]. split; [exact (max0_length n T nd HM HN)|].
    split; [exact HA|]. split; [|congruence]. intros i x Hx. apply HD. rewrite ET, nth_error_map, Hx. reflexivity.
  Qed.
  Lemma colmax_attained n (m : list vec) nd j v : is_matrix n m -> np_max0 m = Ok nd -> nth_error nd j = Some v ->
    exists r, In r m /\ nth_error r j = Some v.
  Proof.
    intros Hm H Hv. destruct (max0_nth n m nd j v Hm H Hv) as (l & Hl & Hx). apply npmax_In in Hx.
    destruct (Forall2_In_r _ _ _ _ Hl Hx) as (r & Hr & E). eauto.
  Qed.
  Lemma colmax_ge n (m : list vec) nd r : is_matrix n m -> nan_free_m m -> np_max0 m = Ok nd -> In r m -> vle r nd.
  Proof.
    intros Hm Hn H Hr. assert (Lr : length r = n) by (unfold is_matrix in Hm; rewrite Forall_forall in Hm; auto).
    apply Forall2_from_nth; [rewrite (max0_length n m nd Hm H); exact Lr|].
    intros j a b Ha Hb. destruct (max0_nth n m nd j b Hm H Hb) as (l & Hl & Hx).
    destruct (Forall2_In_l _ _ _ _ Hl Hr) as (a' & Ha' & Ea). assert (a' = a) by congruence. subst a'.
    assert (HF : nan_free l).
    { apply Forall_forall. intros y Hy. destruct (Forall2_In_r _ _ _ _ Hl Hy) as (r' & Hr' & E'). unfold nan_free_m in Hn. rewrite Forall_forall in Hn. specialize (Hn r' Hr'). unfold nan_free in Hn. rewrite Forall_forall in Hn. apply Hn. eapply nth_error_In; eauto. }
    destruct l as [|y l]; [discriminate|]. cbn in Hx. injection Hx as <-.
    pose proof (fold_max_ge L l y HF) as G. rewrite Forall_forall in G. apply G. exact Ha'.
  Qed.
  Lemma colmax_nan n (m : list vec) nd j v w : is_matrix n m -> np_max0 m = Ok nd -> nth_error nd j = Some w ->
    (exists r, In r m /\ nth_error r j = Some v) -> nisnan v = true -> nisnan w = true.
  Proof.
    intros Hm H Hw (r & Hr & Ev) Hv. destruct (max0_nth n m nd j w Hm H Hw) as (l & Hl & Hx).
    destruct (Forall2_In_l _ _ _ _ Hl Hr) as (v' & Hv' & E). assert (v' = v) by congruence. subst v'.
    destruct l as [|y l]; [discriminate|]. cbn in Hx. injection Hx as <-. apply (fold_max_nan_in L). apply Exists_exists. eauto.
  Qed.
End Table.

(** Behind the result are answers X_1 .. X_n of the solver, the i-th for the weights
    that select objective i; the ideal takes from X_i its i-th objective; every
    component of the nadir is attained at an X_i, none is below what an X_i has, and
    ideal <= nadir (if no outcome is NaN; a NaN makes that component of the nadir NaN). *)
Theorem C59_table :
  forall (N : NumOps), OrdLaws N -> forall (e : sv_env N) eval n bounds constr guess method id nd,
  (1 <= n)%nat -> (forall x, length (eval x) = n) -> sv_payoff e eval n bounds constr guess method = Ok (id, nd) ->
  exists X, length X = n /\ length id = n /\ length nd = n /\
    (forall i x, nth_error X i = Some x -> exists ok, row_answer e eval n bounds constr method (match guess with Some g => g | None => map fst bounds end) i x ok) /\
    (forall i x, nth_error X i = Some x -> nth_error id i = nth_error (eval x) i) /\
    (forall j v, nth_error nd j = Some v -> exists x, In x X /\ nth_error (eval x) j = Some v) /\
    ((forall x, In x X -> nan_free (eval x)) -> (forall x, In x X -> vle (eval x) nd) /\ vle id nd) /\
    (forall x j v w, In x X -> nth_error (eval x) j = Some v -> nisnan v = true -> nth_error nd j = Some w -> nisnan w = true).
Proof.
  intros N L e eval n bounds constr guess method id nd Hn Hl H.
  destruct (payoff_rows e eval n bounds constr guess method id nd Hn Hl H) as (X & HX & HI & HN & HA & HD & HM).
  assert (Mat : is_matrix n (map eval X)) by (apply Forall_forall; intros r Hr; apply in_map_iff in Hr; destruct Hr as (x & <- & _); apply Hl).
  exists X. split; [exact HX|]. split; [exact HI|]. split; [exact HN|]. split; [exact HA|]. split; [exact HD|]. split; [|split].
  - intros j v Hv. destruct (colmax_attained n _ _ j v Mat HM Hv) as (r & Hr & E). apply in_map_iff in Hr. destruct Hr as (x & <- & Hx). eauto.
  - intros HF. assert (NF : nan_free_m (map eval X)) by (apply Forall_forall; intros r Hr; apply in_map_iff in Hr; destruct Hr as (x & <- & Hx); apply HF; exact Hx).
    assert (G : forall x, In x X -> vle (eval x) nd) by (intros x Hx; apply (colmax_ge L n (map eval X)); auto; apply in_map; exact Hx).
    split; [exact G|]. apply Forall2_from_nth; [congruence|]. intros i a b Ha Hb.
    destruct (nth_error X i) as [x|] eqn:Ex.
    2:{ apply nth_error_None in Ex. assert (i < length id)%nat by (apply nth_error_Some; congruence). lia. }
    rewrite (HD i x Ex) in Ha. specialize (G x (nth_error_In _ _ Ex)). destruct (Forall2_nth_l _ _ _ _ _ G Ha) as (b' & Hb' & Hab). congruence.
  - intros x j v w Hx Hv Hnan Hw. apply (colmax_nan L n (map eval X) nd j v w); auto. exists (eval x). split; [apply in_map; exact Hx|exact Hv].
Qed.
Print Assumptions C59_table.
(** Refuted: "optimum".  The success flags are not looked at: an answer of a failed
    optimisation is used like any other. *)
Theorem C59_failure_refuted :
  forall (N : NumOps) (e e' : sv_env N) p guess method,
  (forall j, rmap fst (sv_minimize e j) = rmap fst (sv_minimize e' j)) ->
  sv_payoff_problem e p guess method = sv_payoff_problem e' p guess method.
Proof.
  intros N e e' p guess method H. unfold sv_payoff_problem, sv_payoff. f_equal. apply rseq_map_ext. intros i _. unfold sv_po_row.
  specialize (H (MkJob (fun x => sv_weighted (sp_eval p x) (unit_row (sp_n p) i)) (sp_bounds p) (sp_constraints p) method (Some match guess with Some g => g | None => map fst (sp_bounds p) end))).
  destruct (sv_minimize e _) as [[x ok]|x], (sv_minimize e' _) as [[x' ok']|x']; cbn in *; congruence.
Qed.
Print Assumptions C59_failure_refuted.

(** payoff_table_method only asks for optimisations with the method and the guess it
    was given (the lower bounds if there is none), the bounds and the constraints of
    the problem: what the optimizer says to other requests makes no difference. *)
Theorem C59_what_is_asked :
  forall (N : NumOps) (e e' : sv_env N) p guess method,
  (forall j, sj_method j = method -> sj_bounds j = sp_bounds p ->
     sj_guess j = Some (match guess with Some g => g | None => map fst (sp_bounds p) end) ->
     sj_constr j = (match sp_nconstr p with 0%nat => None | _ => Some (sp_constr p) end) ->
     sv_minimize e j = sv_minimize e' j) ->
  sv_payoff_problem e p guess method = sv_payoff_problem e' p guess method.
Proof.
  intros N e e' p guess method H. unfold sv_payoff_problem, sv_payoff. f_equal. apply rseq_map_ext. intros i _. unfold sv_po_row.
  rewrite H; auto. unfold sp_constraints. cbn [sj_constr]. destruct (sp_nconstr p); reflexivity.
Qed.
Print Assumptions C59_what_is_asked.

(** The decision vectors that are feasible for a problem. *)
Definition admissible {N : NumOps} (p : sv_problem N) (x : list N) : Prop :=
  within (sp_bounds p) x /\ ((0 < sp_nconstr p)%nat -> Forall (fun y => nleb (nofZ 0) y = true) (sp_constr p x)).
Lemma admissible_iff {N : NumOps} (p : sv_problem N) x : admissible p x <-> feasible (sp_bounds p) (sp_constraints p) x.
Proof.
  unfold admissible, feasible, sp_constraints. destruct (Nat.ltb_spec 0 (sp_nconstr p)) as [L|L]; cbn [respects]; intuition; lia.
Qed.
(** Each component of the first vector is the least value of that objective. *)
Definition is_ideal {N : NumOps} (p : sv_problem N) (id : list N) : Prop :=
  length id = sp_n p /\
  forall i a, nth_error id i = Some a ->
    (exists x, admissible p x /\ nth_error (sp_eval p x) i = Some a) /\
    (forall y b, admissible p y -> nth_error (sp_eval p y) i = Some b -> nleb a b = true).
(** All outcomes have one finite number per objective. *)
Definition proper {N : NumOps} (p : sv_problem N) : Prop :=
  (1 <= sp_n p)%nat /\ (forall x, length (sp_eval p x) = sp_n p) /\ forall x, admissible p x -> Forall nfinite (sp_eval p x).

Lemma table_minimisers {N : NumOps} (L : OrdLaws N) (S : sel_law N) (e : sv_env N) p guess method id nd :
  honest e -> succeeds e -> proper p -> sv_payoff_problem e p guess method = Ok (id, nd) ->
  is_ideal p id /\ length nd = sp_n p /\ exists X, length X = sp_n p /\ np_max0 (map (sp_eval p) X) = Ok nd /\
    forall i x, nth_error X i = Some x -> admissible p x /\ nth_error id i = nth_error (sp_eval p x) i.
Proof.
  intros HH HS (Hn & Hl & HF) H. unfold sv_payoff_problem in H.
  destruct (payoff_rows e _ _ _ _ _ _ _ _ Hn Hl H) as (X & HX & HI & HN & HA & HD & HM).
  assert (HE : forall y, feasible (sp_bounds p) (sp_constraints p) y -> length (sp_eval p y) = sp_n p /\ Forall nfinite (sp_eval p y)).
  { intros y Hy. split; [apply Hl|apply HF; apply admissible_iff; exact Hy]. }
  assert (HR : forall i x, nth_error X i = Some x -> feasible (sp_bounds p) (sp_constraints p) x /\
     forall y a b, feasible (sp_bounds p) (sp_constraints p) y -> nth_error (sp_eval p x) i = Some a -> nth_error (sp_eval p y) i = Some b -> nleb a b = true).
  { intros i x Hx. destruct (HA i x Hx) as (ok & Hok). assert (ok = true) by (destruct Hok as (j & ws & Hj & _); exact (HS _ _ _ Hj)). subst ok.
    eapply (row_min L S e); eauto. rewrite <- HX. apply nth_error_Some. congruence. }
  split; [split; [exact HI|]|split; [exact HN|]].
  - intros i a Ha. destruct (nth_error X i) as [x|] eqn:Ex.
    2:{ apply nth_error_None in Ex. assert (i < length id)%nat by (apply nth_error_Some; congruence). lia. }
    destruct (HR i x Ex) as (R1 & R2). rewrite (HD i x Ex) in Ha. split.
    + exists x. split; [apply admissible_iff; exact R1|exact Ha].
    + intros y b Hy Hb. apply (R2 y a b); auto. apply admissible_iff. exact Hy.
  - exists X. split; [exact HX|]. split; [exact HM|]. intros i x Hx. split; [apply admissible_iff; apply (HR i x Hx)|apply HD; exact Hx].
Qed.
(** If the solver reports success for minimisers only, and reports success, the first
    vector is the true ideal point.  Exact numbers and doubles. *)
Theorem C59_true_ideal :
  (forall (e : sv_env XR) p guess method id nd, honest e -> succeeds e -> proper p ->
     sv_payoff_problem e p guess method = Ok (id, nd) -> is_ideal p id) /\
  (forall (e : sv_env F64) p guess method id nd, honest e -> succeeds e -> proper p ->
     sv_payoff_problem e p guess method = Ok (id, nd) -> is_ideal p id).
Proof.
  split; intros e p guess method id nd HH HS HP H.
  - exact (proj1 (table_minimisers XR_ord sel_xr e p guess method id nd HH HS HP H)).
  - exact (proj1 (table_minimisers F64_ord sel_f64 e p guess method id nd HH HS HP H)).
Qed.
Print Assumptions C59_true_ideal.

(** ** C85: the nadir of the payoff table *)
(** [x] is Pareto optimal for the problem. *)
Definition optimal {N : NumOps} (p : sv_problem N) (x : list N) : Prop :=
  admissible p x /\ forall y, admissible p y -> ~ dominates (sp_eval p y) (sp_eval p x).
Lemma finite_notnan_gen {N : NumOps} (nanlaw : forall x : N, nfinite x -> nisnan x = false) (f : list N) : Forall nfinite f -> nan_free f.
Proof. intros H. eapply Forall_impl; [|exact H]. exact nanlaw. Qed.
Lemma xfin_nn (x : XR) : nfinite x -> nisnan x = false.
Proof. intros H. apply xfinite_iff in H. destruct H as (r & ->). apply xisnan_fin. Qed.
Lemma ffin_nn (x : F64) : nfinite x -> nisnan x = false.
Proof. intros H. apply ffin_notnan. apply ffin_sub. exact H. Qed.

Lemma two_obj_gen {N : NumOps} (L : OrdLaws N) (S : sel_law N) (nanlaw : forall x : N, nfinite x -> nisnan x = false) (e : sv_env N) p guess method id nd :
  honest e -> succeeds e -> proper p -> sp_n p = 2%nat -> sv_payoff_problem e p guess method = Ok (id, nd) ->
  forall x, optimal p x -> vle (sp_eval p x) nd.
Proof.
  intros HH HS HP H2 H x (Hx & Hopt).
  destruct (table_minimisers L S e p guess method id nd HH HS HP H) as ((HI & HId) & HN & X & HX & HM & HA).
  destruct HP as (_ & Hl & HF).
  assert (Mat : is_matrix 2 (map (sp_eval p) X)) by (apply Forall_forall; intros r Hr; apply in_map_iff in Hr; destruct Hr as (y & <- & _); rewrite Hl; exact H2).
  destruct X as [|x1 [|x2 [|? ?]]]; try (cbn in HX; rewrite H2 in HX; discriminate).
  destruct (HA 0%nat x1 eq_refl) as (A1 & D1). destruct (HA 1%nat x2 eq_refl) as (A2 & D2).
  assert (NF : nan_free_m (map (sp_eval p) [x1; x2])).
  { repeat constructor; apply (finite_notnan_gen nanlaw); apply HF; assumption. }
  pose proof (colmax_ge L 2 _ nd (sp_eval p x1) Mat NF HM (or_introl eq_refl)) as G1.
  pose proof (colmax_ge L 2 _ nd (sp_eval p x2) Mat NF HM (or_intror (or_introl eq_refl))) as G2.
  pose proof (finite_notnan_gen nanlaw _ (HF x Hx)) as Nx. pose proof (finite_notnan_gen nanlaw _ (HF x1 A1)) as N1. pose proof (finite_notnan_gen nanlaw _ (HF x2 A2)) as N2.
  pose proof (Hopt x1 A1) as O1. pose proof (Hopt x2 A2) as O2.
  pose proof (Hl x) as Lx. pose proof (Hl x1) as L1. pose proof (Hl x2) as L2. rewrite H2 in Lx, L1, L2.
  destruct (sp_eval p x) as [|a [|b [|? ?]]] eqn:Ex; try discriminate.
  destruct (sp_eval p x1) as [|a1 [|b1 [|? ?]]] eqn:Ex1; try discriminate.
  destruct (sp_eval p x2) as [|a2 [|b2 [|? ?]]] eqn:Ex2; try discriminate.
  rewrite H2 in HN. destruct nd as [|u [|v [|? ?]]]; try discriminate.
  inversion G1 as [|? ? ? ? Ga1 G1']; subst. inversion G1' as [|? ? ? ? Gb1 _]; subst. inversion G2 as [|? ? ? ? Ga2 G2']; subst. inversion G2' as [|? ? ? ? Gb2 _]; subst.
  inversion Nx as [|? ? Na Nx']; subst. inversion Nx' as [|? ? Nb _]; subst.
  inversion N1 as [|? ? Na1 N1']; subst. inversion N1' as [|? ? Nb1 _]; subst. inversion N2 as [|? ? Na2 N2']; subst. inversion N2' as [|? ? Nb2 _]; subst.
  assert (M1 : nleb a1 a = true). { destruct (HId 0%nat a1 D1) as (_ & Q). apply (Q x a Hx). rewrite Ex. reflexivity. }
  assert (M2 : nleb b2 b = true). { destruct (HId 1%nat b2 D2) as (_ & Q). apply (Q x b Hx). rewrite Ex. reflexivity. }
  constructor; [|constructor; [|constructor]].
  - (* a <= a2, or x2 dominates x *)
    destruct (nleb a a2) eqn:E; [eapply (ol_trans N L); eauto|]. exfalso. apply O2.
    destruct (ol_total N L a a2 Na Na2) as [T|T]; [congruence|].
    split; [repeat constructor; assumption|]. intros V. inversion V; subst. congruence.
  - destruct (nleb b b1) eqn:E; [eapply (ol_trans N L); eauto|]. exfalso. apply O1.
    destruct (ol_total N L b b1 Nb Nb1) as [T|T]; [congruence|].
    split; [repeat constructor; assumption|]. intros V. inversion V as [|? ? ? ? _ V']; subst. inversion V'; subst. congruence.
Qed.
(** Two objectives, a solver as in C59_true_ideal: no Pareto optimal solution exceeds
    the nadir.  Exact numbers and doubles. *)
Theorem C85_two_objectives :
  (forall (e : sv_env XR) p guess method id nd, honest e -> succeeds e -> proper p -> sp_n p = 2%nat ->
     sv_payoff_problem e p guess method = Ok (id, nd) -> forall x, optimal p x -> vle (sp_eval p x) nd) /\
  (forall (e : sv_env F64) p guess method id nd, honest e -> succeeds e -> proper p -> sp_n p = 2%nat ->
     sv_payoff_problem e p guess method = Ok (id, nd) -> forall x, optimal p x -> vle (sp_eval p x) nd).
Proof. split; [exact (two_obj_gen XR_ord sel_xr xfin_nn)|exact (two_obj_gen F64_ord sel_f64 ffin_nn)]. Qed.
Print Assumptions C85_two_objectives.

Lemma attained_gen {N : NumOps} (L : OrdLaws N) (S : sel_law N) (e : sv_env N) p guess method id nd :
  honest e -> succeeds e -> proper p -> sv_payoff_problem e p guess method = Ok (id, nd) ->
  (forall i x y a b, admissible p x -> admissible p y -> nth_error (sp_eval p x) i = Some a -> nth_error (sp_eval p y) i = Some b ->
     nth_error id i = Some a -> nleb b a = true -> vle (sp_eval p x) (sp_eval p y)) ->
  forall j v, nth_error nd j = Some v -> exists x, optimal p x /\ nth_error (sp_eval p x) j = Some v.
Proof.
  intros HH HS HP H HU j v Hv.
  destruct (table_minimisers L S e p guess method id nd HH HS HP H) as ((HI & HId) & HN & X & HX & HM & HA).
  destruct HP as (_ & Hl & HF).
  assert (Mat : is_matrix (sp_n p) (map (sp_eval p) X)) by (apply Forall_forall; intros r Hr; apply in_map_iff in Hr; destruct Hr as (y & <- & _); apply Hl).
  destruct (colmax_attained _ _ _ _ _ Mat HM Hv) as (r & Hr & E). apply in_map_iff in Hr. destruct Hr as (x & <- & Hx).
  exists x. split; [|exact E]. apply In_nth_error in Hx. destruct Hx as (i & Hi). destruct (HA i x Hi) as (A & D). split; [exact A|].
  intros y Hy (Hd1 & Hd2).
  destruct (nth_error id i) as [a|] eqn:Ea.
  2:{ apply nth_error_None in Ea. assert (i < length X)%nat by (apply nth_error_Some; congruence). lia. }
  symmetry in D. destruct (Forall2_nth_r _ _ _ _ _ Hd1 D) as (b & Hb & Hle).
  apply Hd2. apply (HU i x y a b); auto.
Qed.
(** Any number of objectives: if the least value of an objective belongs to one
    outcome only, every component of the nadir is that of a Pareto optimal solution. *)
Theorem C85_attained :
  (forall (e : sv_env XR) p guess method id nd, honest e -> succeeds e -> proper p -> sv_payoff_problem e p guess method = Ok (id, nd) ->
    (forall i x y a b, admissible p x -> admissible p y -> nth_error (sp_eval p x) i = Some a -> nth_error (sp_eval p y) i = Some b ->
       nth_error id i = Some a -> nleb b a = true -> vle (sp_eval p x) (sp_eval p y)) ->
    forall j v, nth_error nd j = Some v -> exists x, optimal p x /\ nth_error (sp_eval p x) j = Some v) /\
  (forall (e : sv_env F64) p guess method id nd, honest e -> succeeds e -> proper p -> sv_payoff_problem e p guess method = Ok (id, nd) ->
    (forall i x y a b, admissible p x -> admissible p y -> nth_error (sp_eval p x) i = Some a -> nth_error (sp_eval p y) i = Some b ->
       nth_error id i = Some a -> nleb b a = true -> vle (sp_eval p x) (sp_eval p y)) ->
    forall j v, nth_error nd j = Some v -> exists x, optimal p x /\ nth_error (sp_eval p x) j = Some v).
Proof. split; [exact (attained_gen XR_ord sel_xr)|exact (attained_gen F64_ord sel_f64)]. Qed.
Print Assumptions C85_attained.

(** ** An exact solver for examples: it finds a minimiser whenever there is one. *)
Definition best (j : sv_job XR) : res (list XR * bool) :=
  match excluded_middle_informative (exists x, is_min j x) with
  | left H => Ok (proj1_sig (constructive_indefinite_description _ H), true)
  | right _ => Raise SolverExn
  end.
Definition xceil (x : XR) : res Z := match x with Fin r => Ok (- Int_part (- r))%Z | _ => Raise ValueErr end.
Definition best_env : sv_env XR := MkSE best (fun nd id f q => Ok (pm_asf nd id f q)) xceil.
Lemma best_honest : honest best_env.
Proof.
  intros j x H. cbn in H. unfold best in H. destruct (excluded_middle_informative _) as [E|E]; [|discriminate].
  injection H as H. rewrite <- H. exact (proj2_sig (constructive_indefinite_description _ E)).
Qed.
Lemma best_succeeds : succeeds best_env.
Proof. intros j x ok H. cbn in H. unfold best in H. destruct (excluded_middle_informative _); congruence. Qed.
Lemma best_finds j : (exists x, is_min j x) -> exists x, best j = Ok (x, true) /\ is_min j x.
Proof.
  intros H. unfold best. destruct (excluded_middle_informative _) as [E|E]; [|contradiction].
  exists (proj1_sig (constructive_indefinite_description _ E)). split; [reflexivity|exact (proj2_sig (constructive_indefinite_description _ E))].
Qed.
Lemma best_ceil : exact_ceil best_env.
Proof.
  split; [|split].
  - intros r. cbn. eexists. split; [reflexivity|]. unfold is_ceil. destruct (base_Int_part (- r)) as [H1 H2]. rewrite opp_IZR. lra.
  - intros x H1 H2. destruct x; try reflexivity; try congruence.
  - reflexivity.
Qed.

Lemma rseq_total {A B} (f : A -> res B) l : (forall a, In a l -> exists b, f a = Ok b) -> exists v, rseq (map f l) = Ok v.
Proof.
  induction l as [|a l IH]; intros H; [exists []; reflexivity|]. destruct (H a (or_introl eq_refl)) as (b & Hb).
  destruct IH as (v & Hv); [intros a' Ha'; apply H; right; exact Ha'|]. exists (b :: v). cbn. rewrite Hb, Hv. reflexivity.
Qed.
Lemma payoff_total {N : NumOps} (e : sv_env N) eval n bounds constr guess method : (1 <= n)%nat -> (forall x, length (eval x) = n) ->
  (forall i, (i < n)%nat -> exists x ok, sv_minimize e (MkJob (fun x => sv_weighted (eval x) (unit_row n i)) bounds constr method (Some match guess with Some g => g | None => map fst bounds end)) = Ok (x, ok)) ->
  exists id nd, sv_payoff e eval n bounds constr guess method = Ok (id, nd).
Proof.
  intros Hn Hl H. unfold sv_payoff. set (g := match guess with Some g => g | None => map fst bounds end) in *.
  assert (HR : forall i, (i < n)%nat -> exists r, sv_po_row e eval n bounds constr method g i = Ok r /\ length r = n).
  { intros i Hi. destruct (H i Hi) as (x & ok & Hx). exists (eval x). unfold sv_po_row. rewrite Hx. cbn. rewrite (bc_row_same n _ (Hl x)). auto. }
  destruct (rseq_total (sv_po_row e eval n bounds constr method g) (seq 0 n)) as (T & HT).
  { intros i Hi. apply in_seq in Hi. destruct (HR i) as (r & Hr & _); [lia|]. eauto. }
  rewrite HT. cbn [rbind]. rewrite rseq_map_ok in HT.
  assert (HTl : length T = n) by (rewrite <- (Forall2_len _ _ _ HT); apply seq_length).
  assert (HTr : forall r, In r T -> length r = n).
  { intros r Hr. destruct (Forall2_In_r _ _ _ _ HT Hr) as (i & Hi & E). apply in_seq in Hi. destruct (HR i) as (r' & Hr' & L'); [lia|]. congruence. }
  unfold sv_diag. destruct (rseq_total (fun i => do r <- at_ T i; at_ r i) (seq 0 n)) as (id & Hid).
  { intros i Hi. apply in_seq in Hi. destruct (nth_error T i) as [r|] eqn:Er; [|apply nth_error_None in Er; lia].
    assert (Lr : length r = n) by (apply HTr; eapply nth_error_In; eauto).
    destruct (nth_error r i) as [v|] eqn:Ev; [|apply nth_error_None in Ev; lia]. exists v. unfold at_ at 1. rewrite Er. cbn [rbind]. unfold at_. rewrite Ev. reflexivity. }
  rewrite Hid. cbn [rbind]. unfold sv_colmax. destruct n as [|n']; [lia|]. destruct T as [|r T]; [discriminate|]. cbn. eauto.
Qed.

(** A problem with three objectives whose payoff table misses the nadir: the outcomes
    are (0,1,1), (1,0,1), (1,1,0) and (2,1/2,1/2), all of them Pareto optimal. *)
Definition p3_out (r : R) : list R :=
  if Req_EM_T r 0 then [0; 1; 1] else if Req_EM_T r 1 then [1; 0; 1] else if Req_EM_T r (1/2) then [1; 1; 0] else [2; 1/2; 1/2].
Definition p3 : sv_problem XR :=
  MkSP (fun x => match x with [Fin r] => xv (p3_out r) | _ => xv [2; 1/2; 1/2] end) 3 [((Fin 0 : XR), (Fin 1 : XR))] 0 (fun _ => []) None None.
Lemma p3_cases r : p3_out r = [0; 1; 1] \/ p3_out r = [1; 0; 1] \/ p3_out r = [1; 1; 0] \/ p3_out r = [2; 1/2; 1/2].
Proof. unfold p3_out. destruct (Req_EM_T r 0); auto. destruct (Req_EM_T r 1); auto. destruct (Req_EM_T r (1/2)); auto. Qed.
Lemma p3_eval x : exists f, sp_eval p3 x = xv f /\ (f = [0; 1; 1] \/ f = [1; 0; 1] \/ f = [1; 1; 0] \/ f = [2; 1/2; 1/2]).
Proof. cbn. destruct x as [|[| | |r] [|? ?]]; try (exists [2; 1/2; 1/2]; auto; fail). exists (p3_out r). split; [reflexivity|]. apply p3_cases. Qed.
Lemma p3_adm x : admissible p3 x <-> exists r, x = [Fin r : XR] /\ 0 <= r <= 1.
Proof.
  unfold admissible. cbn [p3 sp_bounds sp_nconstr sp_constr]. split.
  - intros (H & _). inversion H as [|b v bs vs Hb Hr]; subst. inversion Hr; subst. destruct Hb as (H1 & H2). cbn [fst snd] in *.
    destruct v as [| | |r]; try discriminate. apply xleb_fin in H1. apply xleb_fin in H2. eauto.
  - intros (r & -> & Hr). split; [|lia]. constructor; [|constructor]. cbn [fst snd]. rewrite !xleb_fin. exact Hr.
Qed.
Lemma p3_proper : proper p3.
Proof.
  split; [cbn; lia|]. split.
  - intros x. destruct (p3_eval x) as (f & -> & [->|[->|[->| ->]]]); reflexivity.
  - intros x _. destruct (p3_eval x) as (f & -> & _). apply Forall_forall. intros v Hv. apply in_map_iff in Hv. destruct Hv as (r & <- & _). apply xfinite_iff. eauto.
Qed.
(** The i-th objective at its minimiser is 0, and that minimiser has one outcome. *)
Definition p3_at (i : nat) : R := match i with 0%nat => 0 | 1%nat => 1 | _ => 1/2 end.
Lemma p3_at_out i : (i < 3)%nat -> nth_error (p3_out (p3_at i)) i = Some 0 /\ 0 <= p3_at i <= 1.
Proof.
  intros Hi. destruct i as [|[|[|i]]]; [| | |lia]; unfold p3_out, p3_at;
    repeat (match goal with |- context [Req_EM_T ?a ?b] => destruct (Req_EM_T a b); try lra end); split; try reflexivity; lra.
Qed.
Lemma p3_min i method g : (i < 3)%nat ->
  is_min (MkJob (fun x => sv_weighted (sp_eval p3 x) (unit_row 3 i)) (sp_bounds p3) (sp_constraints p3) method g) [Fin (p3_at i) : XR].
Proof.
  intros Hi. destruct (p3_at_out i Hi) as (E0 & Hr).
  assert (A : admissible p3 [Fin (p3_at i) : XR]) by (apply p3_adm; eauto).
  split; [cbn [sj_bounds sj_constr]; apply admissible_iff; exact A|]. cbn [sj_fun sj_bounds sj_constr].
  exists (Fin 0 : XR).
  assert (W : forall f, length f = 3%nat -> forall v, nth_error f i = Some v -> sv_weighted (xv f : list XR) (unit_row 3 i) = Ok (Fin v : XR)).
  { intros f Hf v Hv. replace (unit_row (N:=XR) 3 i) with (xv (map (fun j => if Nat.eqb j i then 1 else 0) (seq 0 3))).
    2:{ unfold unit_row, xv. rewrite map_map. apply map_ext. intros j. destruct (Nat.eqb j i); reflexivity. }
    apply (C84_selects_objective 3 i f); auto. pose proof (unit_row_selects (N:=XR) 3 i) as U.
    replace (xv (map (fun j => if Nat.eqb j i then 1 else 0) (seq 0 3))) with (unit_row (N:=XR) 3 i); [exact U|].
    unfold unit_row, xv. rewrite map_map. apply map_ext. intros j. destruct (Nat.eqb j i); reflexivity. }
  split.
  - cbn [p3 sp_eval]. apply W; [destruct (p3_cases (p3_at i)) as [->|[->|[->| ->]]]; reflexivity|exact E0].
  - intros y _. destruct (p3_eval y) as (f & -> & Hf).
    assert (L3 : length f = 3%nat) by (destruct Hf as [->|[->|[->| ->]]]; reflexivity).
    destruct (nth_error f i) as [v|] eqn:Ev; [|apply nth_error_None in Ev; lia].
    exists (Fin v : XR). split; [apply W; auto|]. apply xleb_fin.
    destruct i as [|[|[|i]]]; [| | |lia]; destruct Hf as [->|[->|[->| ->]]]; cbn in Ev; injection Ev as <-; lra.
Qed.
(** A minimiser of objective i has the outcome of [p3_at i]. *)
Lemma p3_unique i x a : (i < 3)%nat -> nth_error (sp_eval p3 x) i = Some a -> nleb a (Fin 0 : XR) = true -> sp_eval p3 x = xv (p3_out (p3_at i)).
Proof.
  intros Hi Ha Hle. destruct (p3_eval x) as (f & Ef & Hf). rewrite Ef in *.
  assert (E : f = p3_out (p3_at i)); [|congruence].
  destruct (p3_at_out i Hi) as (E0 & _). rewrite xv_nth in Ha.
  assert (Hout : (i = 0%nat /\ p3_out (p3_at i) = [0;1;1]) \/ (i = 1%nat /\ p3_out (p3_at i) = [1;0;1]) \/ (i = 2%nat /\ p3_out (p3_at i) = [1;1;0])).
  { destruct i as [|[|[|i]]]; [| | |lia]; cbn [p3_at] in *; destruct (p3_cases 0) as [A|[A|[A|A]]], (p3_cases 1) as [B|[B|[B|B]]], (p3_cases (1/2)) as [C|[C|[C|C]]]; rewrite ?A, ?B, ?C in *; cbn in E0; try (injection E0 as E0; lra); auto. }
  destruct Hout as [(-> & ->)|[(-> & ->)|(-> & ->)]]; destruct Hf as [->|[->|[->| ->]]]; auto; cbn in Ha; injection Ha as <-; apply xleb_fin in Hle; lra.
Qed.
Lemma p3_payoff : exists id nd, sv_payoff_problem best_env p3 None "scipy_de" = Ok (id, nd) /\ is_ideal p3 id /\
  forall v, nth_error nd 0 = Some v -> nleb v (Fin 1 : XR) = true.
Proof.
  destruct (payoff_total best_env (sp_eval p3) 3 (sp_bounds p3) (sp_constraints p3) None "scipy_de") as (id & nd & H).
  - lia.
  - apply p3_proper.
  - intros i Hi. destruct (best_finds _ (ex_intro _ _ (p3_min i "scipy_de" (Some (map fst (sp_bounds p3))) Hi))) as (x & Hx & _). exists x, true. exact Hx.
  - exists id, nd. split; [exact H|].
    destruct (table_minimisers XR_ord sel_xr best_env p3 None "scipy_de" id nd best_honest best_succeeds p3_proper H) as ((HI & HId) & HN & X & HX & HM & HA).
    split; [split; auto|]. intros v Hv.
    assert (Mat : is_matrix 3 (map (sp_eval p3) X)) by (apply Forall_forall; intros r Hr; apply in_map_iff in Hr; destruct Hr as (y & <- & _); apply p3_proper).
    destruct (colmax_attained _ _ _ _ _ Mat HM Hv) as (r & Hr & E). apply in_map_iff in Hr. destruct Hr as (x & <- & Hx). apply In_nth_error in Hx. destruct Hx as (i & Hi).
    assert (Hi3 : (i < 3)%nat) by (change 3%nat with (sp_n p3); rewrite <- HX; apply nth_error_Some; congruence).
    destruct (HA i x Hi) as (Ax & D). destruct (p3_at_out i Hi3) as (E0 & Hr).
    destruct (nth_error id i) as [a|] eqn:Ea; [|apply nth_error_None in Ea; assert (length id = 3%nat) by exact HI; lia].
    destruct (HId i a Ea) as (_ & Q). symmetry in D.
    assert (Hle : nleb a (Fin 0 : XR) = true).
    { apply (Q [Fin (p3_at i) : XR]); [apply p3_adm; eauto|]. cbn [p3 sp_eval]. rewrite xv_nth, E0. reflexivity. }
    rewrite (p3_unique i x a Hi3 D Hle) in E.
    destruct i as [|[|[|i]]]; [| | |lia]; cbn [p3_at] in *; unfold p3_out in E;
      repeat (match type of E with context [Req_EM_T ?a ?b] => destruct (Req_EM_T a b); try lra end); cbn in E; injection E as <-; apply xleb_fin; lra.
Qed.
Lemma p3_optimal : optimal p3 [Fin (1/4) : XR] /\ sp_eval p3 [Fin (1/4) : XR] = xv [2; 1/2; 1/2].
Proof.
  assert (E : sp_eval p3 [Fin (1/4) : XR] = xv [2; 1/2; 1/2]).
  { cbn [p3 sp_eval]. unfold p3_out. repeat (match goal with |- context [Req_EM_T ?a ?b] => destruct (Req_EM_T a b); try lra end). reflexivity. }
  split; [|exact E]. split; [apply p3_adm; exists (1/4); split; [reflexivity|lra]|].
  intros y _ (H1 & H2). rewrite E in *. destruct (p3_eval y) as (f & Ef & Hf). rewrite Ef in *.
  apply xvle_iff in H1. destruct Hf as [->|[->|[->| ->]]];
    try (inversion H1 as [|? ? ? ? C1 H1']; subst; inversion H1' as [|? ? ? ? C2 H1'']; subst; inversion H1'' as [|? ? ? ? C3 _]; subst; lra).
  apply H2. apply xvle_iff. apply rvle_refl.
Qed.
(** Refuted from three objectives on: with an exact solver that never fails, a Pareto
    optimal solution exceeds the nadir of the payoff table. *)
Theorem C85_three_objectives_refuted :
  exists (e : sv_env XR) p id nd x, honest e /\ succeeds e /\ proper p /\ sp_n p = 3%nat /\
    sv_payoff_problem e p None "scipy_de" = Ok (id, nd) /\ is_ideal p id /\ optimal p x /\ ~ vle (sp_eval p x) nd.
Proof.
  destruct p3_payoff as (id & nd & H & HI & HN). exists best_env, p3, id, nd, [Fin (1/4) : XR].
  split; [exact best_honest|]. split; [exact best_succeeds|]. split; [exact p3_proper|]. split; [reflexivity|]. split; [exact H|]. split; [exact HI|].
  destruct p3_optimal as (Ho & E). split; [exact Ho|]. rewrite E. intros V. inversion V as [|? v ? nd' Hv V']; subst.
  specialize (HN v eq_refl). destruct v as [| | |r]; try discriminate. apply xleb_fin in HN. apply xleb_fin in Hv. lra.
Qed.
Print Assumptions C85_three_objectives_refuted.
