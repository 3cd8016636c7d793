(** * Properties of the Pareto front representation, continued (C86, C89, C90), and examples. *)
From Coq Require Import String.
From Coq Require Import ZArith List Bool Lia Reals Lra Floats Sorted ClassicalEpsilon.
From Verif Require Import Num NumXR NumF64 Py Np Spec NpFacts XRFacts MNavigator PNavigator6 MRpm MParetoNav MSolvers SSolvers PSolvers PSolvers2 PSolvers3 F64Sums PropsSolvers PropsSolvers2.
Import ListNotations.
Open Scope R_scope.

(** ** The function returns if the solver does. *)
Lemma pass_total {N : NumOps} (e : sv_env N) eval bounds d method id nd z O V x ok : length bounds <> 1%nat -> is_matrix d O ->
  sv_minimize e (MkJob (fun x => sv_asf e nd id (eval x) z) bounds None method None) = Ok (x, ok) ->
  (ok = true -> length (eval x) = d /\ length x = length bounds) ->
  exists O1 V1, sv_pass e eval bounds d method id nd z (O, V) = Ok (O1, V1) /\ is_matrix d O1.
Proof.
  intros Hb HM Hx Hok. unfold sv_pass. rewrite Hx. cbn [rbind fst snd].
  assert (HN : is_matrix d (O ++ [repeat nnan d])) by (apply Forall_app; split; auto; constructor; auto; apply repeat_length).
  destruct ok; cbn [negb]; [|eauto]. destruct (Hok eq_refl) as (H1 & H2).
  destruct (above_total d (eval x) (not_nan_rows O) H1) as (b & ->).
  { apply Forall_forall. intros r Hr. apply (not_nan_In eval id) in Hr. destruct Hr as (Hr & _). unfold is_matrix in HM. rewrite Forall_forall in HM. auto. }
  cbn [rbind]. destruct (negb b || Nat.ltb (Datatypes.length O) 1); [|eauto].
  rewrite (bc_row_same d _ H1). cbn [rbind]. rewrite (bc_row_same (sv_width bounds) x).
  2:{ rewrite H2. unfold sv_width. destruct (Datatypes.length bounds) as [|[|k]]; congruence. }
  cbn [rbind]. eexists. eexists. split; [reflexivity|]. apply Forall_app. split; auto.
Qed.
Lemma loop_total {N : NumOps} (e : sv_env N) eval bounds d method id nd zs : length bounds <> 1%nat ->
  (forall z, In z zs -> exists x ok, sv_minimize e (MkJob (fun x => sv_asf e nd id (eval x) z) bounds None method None) = Ok (x, ok) /\
     (ok = true -> length (eval x) = d /\ length x = length bounds)) ->
  forall O V, is_matrix d O -> exists O' V', sv_loop e eval bounds d method id nd zs (O, V) = Ok (O', V').
Proof.
  intros Hb. induction zs as [|z zs IH]; intros HZ O V HM; cbn [sv_loop]; [eauto|].
  destruct (HZ z (or_introl eq_refl)) as (x & ok & Hx & Hok).
  destruct (pass_total e eval bounds d method id nd z O V x ok Hb HM Hx Hok) as (O1 & V1 & -> & HM1). cbn [rbind].
  apply IH; [|exact HM1]. intros z' Hz. apply HZ. right. exact Hz.
Qed.

(** ** C90: the step *)
(** A float, or an array with one entry per objective, all positive: accepted. *)
Theorem C90_accepted :
  forall (e : sv_env XR) eval n bounds st ss eps id nd constr method,
  exact_ceil e -> id <> [] -> length id = length nd -> 0 < eps -> step_is (length id) st ss -> Forall (fun s => 0 < s) ss -> length bounds <> 1%nat ->
  (forall z, on_grid eps (zipw Rmin id nd) (zipw Rmax id nd) ss z ->
     exists x ok, sv_minimize e (MkJob (fun x => sv_asf e (xv nd) (xv id) (eval x) (xv z)) bounds None method None) = Ok (x, ok) /\
       (ok = true -> length (eval x) = length id /\ length x = length bounds)) ->
  exists V O, sv_front e eval n bounds st (Fin eps : XR) (Some (xv id)) (Some (xv nd)) constr method = Ok (V, O).
Proof.
  intros e eval n bounds st ss eps id nd constr method HC Hne Ln He Hst Hs Hb HE.
  assert (Hnd : nd <> []) by (intros ->; destruct id; [congruence|discriminate]).
  rewrite front_known by (apply known_xr; assumption).
  destruct (grid_xr e id nd eps st ss HC He Hne Ln Hst Hs) as (Z & -> & _ & HZI). cbn [rbind]. rewrite xv_length.
  destruct (loop_total e eval bounds (length id) method (xv id) (xv nd) (xm Z) Hb) with (O := @nil (list XR)) (V := @nil (list XR)) as (O' & V' & ->).
  - intros z Hz. apply in_map_iff in Hz. destruct Hz as (z' & <- & Hz). apply HE. apply HZI. exact Hz.
  - constructor.
  - cbn [rbind]. eauto.
Qed.
Print Assumptions C90_accepted.
(** Anything else than a float or an array, an array of another rank, an array with
    another number of entries: the documented exception. *)
Theorem C90_rejected :
  forall (N : NumOps) (e : sv_env N) eval n bounds st eps id nd constr method,
  known id -> known nd -> length id = length nd ->
  (st = StOther \/ st = StArrND \/ exists v, st = StArr v /\ length v <> length id) ->
  sv_front e eval n bounds st eps (Some id) (Some nd) constr method = Raise MethodExn.
Proof.
  intros N e eval n bounds st eps id nd constr method K1 K2 Hl H. rewrite front_known by assumption.
  unfold sv_grid. rewrite Hl, Nat.eqb_refl. cbn [negb]. destruct H as [->|[->|(v & -> & Hv)]]; try reflexivity.
  cbn [sv_steps]. destruct (Nat.eqb_spec (Datatypes.length v) (Datatypes.length nd)); [congruence|]. reflexivity.
Qed.
Print Assumptions C90_rejected.
(** Refuted: an ideal and a nadir of different lengths give a ValueError of numpy
    instead, whatever the step. *)
Theorem C90_lengths_refuted :
  forall (N : NumOps) (e : sv_env N) eval n bounds st eps id nd constr method,
  known id -> known nd -> length id <> length nd ->
  sv_front e eval n bounds st eps (Some id) (Some nd) constr method = Raise ValueErr.
Proof.
  intros N e eval n bounds st eps id nd constr method K1 K2 Hl. rewrite front_known by assumption.
  unfold sv_grid. destruct (Nat.eqb_spec (Datatypes.length id) (Datatypes.length nd)); [congruence|]. reflexivity.
Qed.
Print Assumptions C90_lengths_refuted.

Lemma axis_cases (e : sv_env XR) lo up eps s : exact_ceil e -> (exists v, sv_axis e lo up eps s = Ok v) \/ sv_axis e lo up eps s = Raise ValueErr.
Proof.
  intros (C1 & C2 & C3). unfold sv_axis. set (q := ndiv _ s). destruct q as [| | |r] eqn:E.
  - right. rewrite C3. reflexivity.
  - right. rewrite C2; [reflexivity|discriminate|discriminate].
  - right. rewrite C2; [reflexivity|discriminate|discriminate].
  - destruct (C1 r) as (c & -> & _). cbn [rbind]. destruct (c <? 0)%Z; eauto.
Qed.
Lemma axes_fail (e : sv_env XR) eps : exact_ceil e -> forall i lo up ss l u s,
  nth_error lo i = Some l -> nth_error up i = Some u -> nth_error ss i = Some s -> sv_axis e l u eps s = Raise ValueErr ->
  sv_axes e lo up eps ss = Raise ValueErr.
Proof.
  intros HC. induction i as [|i IH]; intros [|l0 lo] [|u0 up] [|s0 ss] l u s H1 H2 H3 H; try discriminate; cbn in H1, H2, H3; cbn [sv_axes].
  - injection H1 as ->. injection H2 as ->. injection H3 as ->. rewrite H. reflexivity.
  - destruct (axis_cases e l0 u0 eps s0 HC) as [(v & ->)| ->]; [|reflexivity]. cbn [rbind]. rewrite (IH lo up ss l u s) by assumption. reflexivity.
Qed.
Lemma grid_fail (e : sv_env XR) eps st (id nd ss : list XR) i a b s : exact_ceil e -> length id = length nd -> sv_steps (length id) st = Ok ss ->
  nth_error id i = Some a -> nth_error nd i = Some b -> nth_error ss i = Some s ->
  sv_axis e (nminimum a b) (nmaximum a b) eps s = Raise ValueErr -> sv_grid e id nd eps st = Raise ValueErr.
Proof.
  intros HC Hl Hs H1 H2 H3 H. unfold sv_grid. rewrite Hl, Nat.eqb_refl. cbn [negb]. rewrite <- Hl, Hs. cbn [rbind].
  rewrite (axes_fail e eps HC i _ _ ss (nminimum a b) (nmaximum a b) s); auto.
  - apply zipw_nth; assumption.
  - apply zipw_nth; assumption.
Qed.

(** A zero step (among others, all finite): ValueError (OverflowError in Python). *)
Theorem C90_zero_step :
  forall (e : sv_env XR) eval n bounds st ss eps id nd constr method i,
  exact_ceil e -> id <> [] -> length id = length nd -> 0 < eps -> step_is (length id) st ss -> nth_error ss i = Some 0 ->
  sv_front e eval n bounds st (Fin eps : XR) (Some (xv id)) (Some (xv nd)) constr method = Raise ValueErr.
Proof.
  intros e eval n bounds st ss eps id nd constr method i HC Hne Ln He Hst Hi.
  assert (Hnd : nd <> []) by (intros ->; destruct id; [congruence|discriminate]).
  rewrite front_known by (apply known_xr; assumption).
  assert (Hlt : (i < length id)%nat) by (rewrite <- (proj1 Hst); apply nth_error_Some; congruence).
  destruct (nth_error id i) as [a|] eqn:Ea; [|apply nth_error_None in Ea; lia].
  destruct (nth_error nd i) as [b|] eqn:Eb; [|apply nth_error_None in Eb; lia].
  rewrite (grid_fail e (Fin eps : XR) st (xv id) (xv nd) (xv ss) i (Fin a : XR) (Fin b : XR) (Fin 0 : XR)); auto.
  - rewrite !xv_length. exact Ln.
  - rewrite xv_length. apply steps_xr. exact Hst.
  - rewrite xv_nth, Ea. reflexivity.
  - rewrite xv_nth, Eb. reflexivity.
  - rewrite xv_nth, Hi. reflexivity.
  - assert (M1 : @nminimum XR (Fin a) (Fin b) = (Fin (Rmin a b) : XR)) by (pose proof (zipmin_xr [a] [b]) as Q; cbn [xv map zipw] in Q; injection Q as Q; exact Q).
    assert (M2 : @nmaximum XR (Fin a) (Fin b) = (Fin (Rmax a b) : XR)) by (pose proof (zipmax_xr [a] [b]) as Q; cbn [xv map zipw] in Q; injection Q as Q; exact Q).
    rewrite M1, M2. unfold sv_axis.
    assert (Hp : 0 < Rmax a b + eps - Rmin a b). { pose proof (Rmin_l a b). pose proof (Rmax_l a b). lra. }
    change (@ndiv XR (@nsub XR (@nadd XR (Fin (Rmax a b) : XR) (Fin eps : XR)) (Fin (Rmin a b) : XR)) (Fin 0 : XR)) with (xdiv (Fin (Rmax a b + eps - Rmin a b)) (Fin 0)).
    unfold xdiv. destruct (Req_EM_T 0 0) as [_|Q]; [|congruence].
    destruct HC as (_ & C2 & C3). unfold xinf_of. destruct (xsign (Rmax a b + eps - Rmin a b)); first [rewrite C2; [reflexivity|discriminate|discriminate]|rewrite C3; reflexivity].
Qed.
Print Assumptions C90_zero_step.

Lemma axis_neg (e : sv_env XR) lo up eps s : exact_ceil e -> s < 0 -> lo <= up -> 0 < eps ->
  sv_axis e (Fin lo : XR) (Fin up : XR) (Fin eps : XR) (Fin s : XR) = Ok [] \/ sv_axis e (Fin lo : XR) (Fin up : XR) (Fin eps : XR) (Fin s : XR) = Raise ValueErr.
Proof.
  intros (C1 & _) Hs Hlu He. unfold sv_axis.
  change (@nsub XR (@nadd XR (Fin up : XR) (Fin eps : XR)) (Fin lo : XR)) with (Fin (up + eps - lo) : XR).
  change (@ndiv XR (Fin (up + eps - lo) : XR) (Fin s : XR)) with (xdiv (Fin (up + eps - lo)) (Fin s)). rewrite xdiv_fin by lra.
  destruct (C1 ((up + eps - lo) / s)) as (c & -> & H1 & H2). cbn [rbind].
  assert (Hq : (up + eps - lo) / s < 0). { unfold Rdiv. rewrite <- (Rmult_0_r (up + eps - lo)). apply Rmult_lt_compat_l; [lra|]. apply Rinv_lt_0_compat. exact Hs. }
  assert (c <= 0)%Z. { assert (c < 1)%Z; [|lia]. apply lt_IZR. lra. }
  destruct (Z.ltb_spec c 0) as [L|L]; [right; reflexivity|]. assert (c = 0)%Z by lia. subst c. left. reflexivity.
Qed.
(** A negative step: no reference points, hence an empty result, or ValueError. *)
Theorem C90_negative_step :
  forall (e : sv_env XR) eval n bounds st ss eps id nd constr method,
  exact_ceil e -> id <> [] -> length id = length nd -> 0 < eps -> step_is (length id) st ss -> Forall (fun s => s < 0) ss ->
  sv_front e eval n bounds st (Fin eps : XR) (Some (xv id)) (Some (xv nd)) constr method = Raise ValueErr \/
  sv_front e eval n bounds st (Fin eps : XR) (Some (xv id)) (Some (xv nd)) constr method = Ok ([], []).
Proof.
  intros e eval n bounds st ss eps id nd constr method HC Hne Ln He Hst Hs.
  assert (Hnd : nd <> []) by (intros ->; destruct id; [congruence|discriminate]).
  rewrite front_known by (apply known_xr; assumption).
  assert (G : sv_grid e (xv id) (xv nd) (Fin eps : XR) st = Raise ValueErr \/ sv_grid e (xv id) (xv nd) (Fin eps : XR) st = Ok []).
  { unfold sv_grid. rewrite !xv_length, Ln, Nat.eqb_refl. cbn [negb]. rewrite <- Ln, (steps_xr _ _ _ Hst). cbn [rbind]. rewrite zipmin_xr, zipmax_xr.
    pose proof (minmax_le id nd Ln) as HM. destruct Hst as (Hl & _).
    destruct id as [|i0 id]; [congruence|]. destruct nd as [|d0 nd]; [congruence|]. destruct ss as [|s0 ss]; [discriminate|].
    cbn [zipw] in HM |- *. inversion HM as [|? ? ? ? M1 M2]; subst. inversion Hs as [|? ? S1 S2]; subst.
    cbn [xv map sv_axes].
    destruct (axis_neg e (Rmin i0 d0) (Rmax i0 d0) eps s0 HC S1 M1 He) as [-> | ->]; [|left; reflexivity]. cbn [rbind].
    assert (A : forall lo up ss', (exists m, sv_axes e lo up (Fin eps : XR) ss' = Ok m) \/ sv_axes e lo up (Fin eps : XR) ss' = Raise ValueErr).
    { clear - HC. induction lo as [|l lo IH]; intros [|u up] [|s ss']; cbn [sv_axes]; eauto.
      destruct (axis_cases e l u (Fin eps : XR) s HC) as [(v & ->)| ->]; [|auto]. cbn [rbind]. destruct (IH up ss') as [(m & ->)| ->]; [left; cbn; eauto|auto]. }
    match goal with |- context [sv_axes e ?a ?b _ ?c] => destruct (A a b c) as [(m & ->)| ->] end; [right; reflexivity|left; reflexivity]. }
  destruct G as [-> | ->]; [left; reflexivity|]. right. reflexivity.
Qed.
Print Assumptions C90_negative_step.

(** ** C89: the ideal and the nadir are not known *)
(** All entries of one of them infinite: both are computed with the payoff table
    method, from the lower bounds and with "scipy_de" whatever solver is asked for, and
    the result is as if they had been given. *)
Theorem C89_computed :
  forall (N : NumOps) (e : sv_env N) eval n bounds st eps ideal nadir constr method,
  (exists i, ideal = Some i /\ unknown i) \/ (exists i d, ideal = Some i /\ nadir = Some d /\ unknown d) ->
  (forall x, sv_payoff e eval n bounds constr (Some (map fst bounds)) "scipy_de" = Raise x -> sv_front e eval n bounds st eps ideal nadir constr method = Raise x) /\
  (forall i d, sv_payoff e eval n bounds constr (Some (map fst bounds)) "scipy_de" = Ok (i, d) -> known i -> known d ->
     sv_front e eval n bounds st eps ideal nadir constr method = sv_front e eval n bounds st eps (Some i) (Some d) constr method).
Proof.
  intros N e eval n bounds st eps ideal nadir constr method H.
  assert (E : sv_points e eval n bounds constr ideal nadir = sv_payoff e eval n bounds constr (Some (map fst bounds)) "scipy_de").
  { unfold sv_points. destruct H as [(i & -> & Hi)|(i & d & -> & -> & Hd)].
    - apply unknown_iff in Hi. cbn. rewrite Hi. reflexivity.
    - apply unknown_iff in Hd. cbn. destruct (forallb nisinf i); cbn; rewrite ?Hd; reflexivity. }
  split.
  - intros x Hx. unfold sv_front. rewrite E, Hx. reflexivity.
  - intros i d Hx K1 K2. rewrite front_known by assumption. unfold sv_front. rewrite E, Hx. reflexivity.
Qed.
Print Assumptions C89_computed.
(** Refuted: None, the default, is a TypeError. *)
Theorem C89_none_refuted :
  forall (N : NumOps) (e : sv_env N) eval n bounds st eps constr method,
  (forall nadir, sv_front e eval n bounds st eps None nadir constr method = Raise TypeErr) /\
  (forall i, known i -> sv_front e eval n bounds st eps (Some i) None constr method = Raise TypeErr).
Proof.
  intros N e eval n bounds st eps constr method. split; [reflexivity|]. intros i K. apply known_iff in K. unfold sv_front, sv_points. cbn. rewrite K. reflexivity.
Qed.
Print Assumptions C89_none_refuted.

Lemma axis_inf (e : sv_env XR) a b eps s : exact_ceil e -> 0 < s -> (forall r, a <> Fin r) \/ (forall r, b <> Fin r) ->
  sv_axis e (@nminimum XR a b) (@nmaximum XR a b) (Fin eps : XR) (Fin s : XR) = Raise ValueErr.
Proof.
  intros (_ & C2 & C3) Hs H. unfold sv_axis.
  assert (E : exists q, @ndiv XR (@nsub XR (@nadd XR (@nmaximum XR a b) (Fin eps : XR)) (@nminimum XR a b)) (Fin s : XR) = q /\ forall r, q <> Fin r).
  { eexists. split; [reflexivity|].
    assert (Hd : forall q, (forall r, q <> Fin r) -> forall r, xdiv q (Fin s) <> Fin r).
    { intros q Hq r. unfold xdiv. destruct q as [| | |t]; try discriminate; try (destruct (Rlt_dec s 0); discriminate). contradiction (Hq t). reflexivity. }
    apply Hd. clear Hd. unfold nminimum, nmaximum.
    destruct a as [| | |x], b as [| | |y]; try (intros r; cbn; discriminate); try (exfalso; destruct H as [H|H]; eapply H; reflexivity).
    all: intros r; unfold nisnan; cbn; unfold xeqb; cbn; rewrite ?(proj2 (rleb_true _ _) (Rle_refl _)); cbn; try discriminate. }
  destruct E as (q & -> & Hq). destruct q as [| | |r]; [rewrite C3; reflexivity| | |contradiction (Hq r); reflexivity]; rewrite C2; try reflexivity; try discriminate.
Qed.
(** Refuted: some entries infinite, but not all: ValueError (OverflowError in Python). *)
Theorem C89_partly_infinite_refuted :
  forall (e : sv_env XR) eval n bounds st ss eps id nd constr method,
  exact_ceil e -> known id -> known nd -> length id = length nd -> step_is (length id) st ss -> Forall (fun s => 0 < s) ss ->
  (exists i x, (nth_error id i = Some x \/ nth_error nd i = Some x) /\ nisinf x = true) ->
  sv_front e eval n bounds st (Fin eps : XR) (Some id) (Some nd) constr method = Raise ValueErr.
Proof.
  intros e eval n bounds st ss eps id nd constr method HC K1 K2 Hl Hst Hs (i & x & Hx & Hinf).
  rewrite front_known by assumption.
  assert (Hlt : (i < length id)%nat). { destruct Hx as [Hx|Hx]; [|rewrite Hl]; apply nth_error_Some; congruence. }
  destruct (nth_error id i) as [a|] eqn:Ea; [|apply nth_error_None in Ea; lia].
  destruct (nth_error nd i) as [b|] eqn:Eb; [|apply nth_error_None in Eb; lia].
  destruct (nth_error ss i) as [s|] eqn:Es; [|apply nth_error_None in Es; rewrite (proj1 Hst) in Es; lia].
  assert (Hxi : forall r, x <> Fin r).
  { intros r ->. unfold nisinf in Hinf. rewrite xisnan_fin in Hinf. change (@nsub XR (Fin r) (Fin r)) with (Fin (r - r) : XR) in Hinf. rewrite xisnan_fin in Hinf. discriminate. }
  rewrite (grid_fail e (Fin eps : XR) st id nd (xv ss) i a b (Fin s : XR)); auto.
  - apply steps_xr. exact Hst.
  - rewrite xv_nth, Es. reflexivity.
  - apply axis_inf; auto. { rewrite Forall_forall in Hs. apply Hs. eapply nth_error_In; eauto. }
    destruct Hx as [Hx|Hx]; injection Hx as ->; auto.
Qed.
Print Assumptions C89_partly_infinite_refuted.

(** ** C86: the constraints *)
(** Refuted: with a given ideal and nadir the constraint evaluator is not used at all. *)
Theorem C86_ignored_refuted :
  forall (N : NumOps) (e : sv_env N) eval n bounds st eps id nd constr method, known id -> known nd ->
  sv_front e eval n bounds st eps (Some id) (Some nd) constr method = sv_front e eval n bounds st eps (Some id) (Some nd) None method.
Proof. intros. rewrite !front_known by assumption. reflexivity. Qed.
Print Assumptions C86_ignored_refuted.

(** Two objectives, the decision variables themselves, in [0,1] x [0,1] with the
    constraint x1 >= 1/2. *)
Definition two_eval (x : list XR) : list XR := match x with [a; b] => [a; b] | _ => xv [0; 0] end.
Definition unit_b : list (XR * XR) := [((Fin 0 : XR), (Fin 1 : XR)); ((Fin 0 : XR), (Fin 1 : XR))].
Definition half (x : list XR) : list XR := match x with a :: _ => [nsub a (Fin (1/2) : XR)] | [] => [] end.
Definition q2 (c : nat) : sv_problem XR := MkSP two_eval 2 unit_b c half (Some (xv [1/2; 0])) (Some (xv [1; 1])).
Lemma unit_within x : within unit_b x <-> exists a b, x = xv [a; b] /\ 0 <= a <= 1 /\ 0 <= b <= 1.
Proof.
  unfold within, unit_b. split.
  - intros H. inversion H as [|b1 v1 bs1 vs1 Hb1 Hr1]; subst. inversion Hr1 as [|b2 v2 bs2 vs2 Hb2 Hr2]; subst. inversion Hr2; subst.
    cbn [fst snd] in Hb1, Hb2. destruct Hb1 as (A1 & A2), Hb2 as (B1 & B2).
    destruct v1 as [| | |a]; try discriminate. destruct v2 as [| | |b]; try discriminate.
    apply xleb_fin in A1. apply xleb_fin in A2. apply xleb_fin in B1. apply xleb_fin in B2. exists a, b. auto.
  - intros (a & b & -> & Ha & Hb). cbn [xv map]. constructor; [|constructor; [|constructor]]; cbn [fst snd]; rewrite !xleb_fin; assumption.
Qed.
(** The point method ASF has its minimum over the unit square at the origin. *)
Lemma unit_min id nd z method : length id = 2%nat -> length z = 2%nat -> rvle id nd ->
  is_min (MkJob (fun x => sv_asf best_env (xv nd) (xv id) (two_eval x) (xv z)) unit_b None method None) (xv [0; 0]).
Proof.
  intros Hi Hz Hle. pose proof (rvle_len _ _ Hle) as Hn. assert (Hne : nd <> []) by (intros ->; cbn in Hn; lia).
  destruct (pm_asf_fin nd id [0; 0] z) as (a & Ea); auto; try (cbn; lia).
  split.
  - split; [|exact I]. cbn [sj_bounds]. apply unit_within. exists 0, 0. repeat split; lra.
  - cbn [sj_fun sj_bounds sj_constr]. exists (Fin a : XR). change (two_eval (xv [0; 0])) with (xv [0; 0] : list XR). cbn [best_env sv_asf]. split; [rewrite Ea; reflexivity|].
    intros y (Hy & _). apply unit_within in Hy. destruct Hy as (u & v & -> & Hu & Hv).
    destruct (pm_asf_fin nd id [u; v] z) as (b & Eb); auto; try (cbn; lia). exists (Fin b : XR). change (two_eval (xv [u; v])) with (xv [u; v] : list XR). split; [rewrite Eb; reflexivity|]. apply xleb_fin.
    destruct (Req_EM_T u 0) as [->|Du]; [destruct (Req_EM_T v 0) as [->|Dv]|].
    + rewrite Ea in Eb. injection Eb as ->. lra.
    + destruct (pm_asf_strict nd id [0; 0] [0; v] z) as (a' & b' & Ea' & Eb' & Hab); auto; try (cbn; lia).
      { constructor; [lra|constructor; [lra|constructor]]. } { intros Q. injection Q as Q. lra. }
      rewrite Ea in Ea'. rewrite Eb in Eb'. injection Ea' as <-. injection Eb' as <-. lra.
    + destruct (pm_asf_strict nd id [0; 0] [u; v] z) as (a' & b' & Ea' & Eb' & Hab); auto; try (cbn; lia).
      { constructor; [lra|constructor; [lra|constructor]]. } { intros Q. injection Q as Q1 Q2. lra. }
      rewrite Ea in Ea'. rewrite Eb in Eb'. injection Ea' as <-. injection Eb' as <-. lra.
Qed.
Lemma unit_unique id nd z method x : length id = 2%nat -> length z = 2%nat -> rvle id nd ->
  is_min (MkJob (fun x => sv_asf best_env (xv nd) (xv id) (two_eval x) (xv z)) unit_b None method None) x -> x = xv [0; 0].
Proof.
  intros Hi Hz Hle ((Hx & _) & v & Hv & Hmin). pose proof (rvle_len _ _ Hle) as Hn. assert (Hne : nd <> []) by (intros ->; cbn in Hn; lia).
  cbn [sj_bounds sj_fun sj_constr best_env sv_asf] in *.
  apply unit_within in Hx. destruct Hx as (a & b & -> & Ha & Hb).
  destruct (Hmin (xv [0; 0])) as (w & Hw & Hvw). { split; [|exact I]. apply unit_within. exists 0, 0. repeat split; lra. }
  change (two_eval (xv [a; b])) with (xv [a; b] : list XR) in Hv. change (two_eval (xv [0; 0])) with (xv [0; 0] : list XR) in Hw.
  assert (E : [0; 0] = [a; b] \/ [0; 0] <> [a; b]).
  { destruct (Req_EM_T 0 a) as [<-|D]; [destruct (Req_EM_T 0 b) as [<-|D]; [left; reflexivity|]|]; right; congruence. }
  destruct E as [<-|D]; [reflexivity|].
  destruct (pm_asf_strict nd id [0; 0] [a; b] z) as (a' & b' & Ea' & Eb' & Hab); auto; try (cbn; lia).
  { constructor; [lra|constructor; [lra|constructor]]. }
  rewrite Ea' in Hw. rewrite Eb' in Hv. injection Hv as <-. injection Hw as <-. apply xleb_fin in Hvw. lra.
Qed.
Lemma unit_best id nd z method : length id = 2%nat -> length z = 2%nat -> rvle id nd ->
  sv_minimize best_env (MkJob (fun x => sv_asf best_env (xv nd) (xv id) (two_eval x) (xv z)) unit_b None method None) = Ok (xv [0; 0], true).
Proof.
  intros Hi Hz Hle. destruct (best_finds _ (ex_intro _ _ (unit_min id nd z method Hi Hz Hle))) as (x & Hx & Hm).
  rewrite (unit_unique id nd z method x Hi Hz Hle Hm) in Hx. exact Hx.
Qed.
Lemma unit_front id nd s method constr : length id = 2%nat -> rvle id nd -> 0 < s ->
  exists V O, sv_front best_env two_eval 2 unit_b (StFloat (Fin s : XR)) (Fin (1/1000000) : XR) (Some (xv id)) (Some (xv nd)) constr method = Ok (V, O).
Proof.
  intros Hi Hle Hs. pose proof (rvle_len _ _ Hle) as Hn.
  apply (C90_accepted best_env two_eval 2 unit_b _ [s; s]); auto.
  - apply best_ceil.
  - intros ->. discriminate.
  - lra.
  - split; [rewrite Hi; reflexivity|]. right. exists s. split; [reflexivity|]. rewrite Hi. reflexivity.
  - discriminate.
  - intros z Hz. apply on_grid_len in Hz. rewrite zipw_length in Hz. exists (xv [0; 0]), true. split.
    + apply unit_best; auto; lia.
    + intros _. rewrite Hi. split; reflexivity.
Qed.
Lemma unit_in id nd s method constr V O : length id = 2%nat -> rvle id nd -> 0 < s ->
  sv_front best_env two_eval 2 unit_b (StFloat (Fin s : XR)) (Fin (1/1000000) : XR) (Some (xv id)) (Some (xv nd)) constr method = Ok (V, O) -> In (xv [0; 0]) O /\ In (xv [0; 0]) V.
Proof.
  intros Hi Hle Hs H. pose proof (rvle_len _ _ Hle) as Hn.
  assert (Hid : id <> []) by (intros ->; discriminate). assert (Hnd : nd <> []) by (intros ->; cbn in Hn; lia).
  (* the jobs of this run only have the origin as an answer *)
  set (e := MkSE (fun _ : sv_job XR => Ok (xv [0; 0], true)) (sv_asf best_env) xceil).
  assert (St : step_is (length id) (StFloat (Fin s : XR)) [s; s]).
  { split; [rewrite Hi; reflexivity|]. right. exists s. split; [reflexivity|]. rewrite Hi. reflexivity. }
  assert (Ss : Forall (fun s => 0 < s) [s; s]) by (repeat constructor; exact Hs).
  rewrite (C88_no_other_points best_env e two_eval 2 unit_b _ [s; s] (1/1000000) id nd constr method best_ceil) in H; auto; try lra.
  2:{ intros z Hz. apply on_grid_len in Hz. rewrite zipw_length in Hz. rewrite unit_best by (auto; lia). reflexivity. }
  assert (HS : sane e two_eval 2 2).
  { intros j x Hj. injection Hj as <-. change (two_eval (xv [0; 0])) with (xv [0; 0] : list XR). repeat split; left; apply xisnan_fin. }
  assert (A : In (two_eval (xv [0; 0])) O).
  { apply (C87_kept_partial e two_eval 2 unit_b (StFloat (Fin s : XR)) [s; s] (1/1000000) id nd constr method V O (xv [0; 0])); auto; try lra.
    - apply best_ceil.
    - intros j x Hj. destruct (HS j x Hj) as (_ & B & _ & D). rewrite Hi. auto.
    - exists (MkJob (fun x => sv_asf e (xv nd) (xv id) (two_eval x) (xv id)) unit_b None method None). repeat split; reflexivity. }
  split; [exact A|].
  assert (F : Forall2 (fun x f => f = two_eval x /\ exists z, ref_answer e two_eval unit_b method (xv id) (xv nd) z x true) V O).
  { eapply (C60_aligned XR XR_ord e two_eval 2 unit_b); [apply known_xr; exact Hid|apply known_xr; exact Hnd|discriminate| |exact H]. rewrite xv_length, Hi. exact HS. }
  destruct (Forall2_In_r _ _ _ _ F A) as (x & Hx & _ & (z & j & Hj & _)). injection Hj as <-. exact Hx.
Qed.
(** solve_pareto_front_representation, ideal and nadir known: every optimisation is asked
    for with the method that was given and the bounds of the problem, and the achievement
    function is the one of the nadir and the ideal of the problem. *)
Theorem C60_what_is_asked :
  forall (N : NumOps) (e e' : sv_env N) p st eps method id nd,
  sp_ideal p = Some id -> sp_nadir p = Some nd -> existsb nisinf id = false -> existsb nisinf nd = false -> id <> [] -> nd <> [] ->
  (forall j, sj_method j = method -> sj_bounds j = sp_bounds p -> sv_minimize e j = sv_minimize e' j) ->
  (forall f z, sv_asf e nd id f z = sv_asf e' nd id f z) -> (forall x, sv_ceil e x = sv_ceil e' x) ->
  (forall f g b c m g', (forall x, f x = g x) -> sv_minimize e' (MkJob f b c m g') = sv_minimize e' (MkJob g b c m g')) ->
  sv_front_problem e p st eps method = sv_front_problem e' p st eps method.
Proof.
  intros N e e' p st eps method id nd Hi Hn Ii In_ Ni Nn HJ HA HC HX.
  unfold sv_front_problem, sv_front. rewrite Hi, Hn.
  assert (A : forall v : list N, v <> [] -> existsb nisinf v = false -> forallb nisinf v = false).
  { intros [|a v] Hv Hx; [congruence|]. cbn in *. apply orb_false_iff in Hx. destruct Hx as [-> _]. reflexivity. }
  assert (P : forall e0 : sv_env N, sv_points e0 (sp_eval p) (sp_n p) (sp_bounds p) (sp_constraints p) (Some id) (Some nd) = Ok (id, nd)).
  { intros e0. unfold sv_points, sv_all_inf. cbn [rbind]. rewrite (A id), (A nd); auto. }
  rewrite !P. cbn [rbind fst snd].
  assert (G : forall lo up ss, sv_axes e lo up eps ss = sv_axes e' lo up eps ss).
  { induction lo as [|l lo IH]; intros [|u up] [|s ss]; cbn; auto. unfold sv_axis. rewrite HC, IH. reflexivity. }
  assert (Gr : sv_grid e id nd eps st = sv_grid e' id nd eps st).
  { unfold sv_grid. destruct (negb _); auto. destruct (sv_steps _ st); cbn; auto. rewrite G. reflexivity. }
  rewrite Gr. destruct (sv_grid e' id nd eps st) as [zs|]; cbn [rbind]; auto.
  assert (Lp : forall acc, sv_loop e (sp_eval p) (sp_bounds p) (length id) method id nd zs acc = sv_loop e' (sp_eval p) (sp_bounds p) (length id) method id nd zs acc).
  2:{ rewrite Lp. reflexivity. }
  clear Gr.
  induction zs as [|z zs IH]; intros acc; cbn [sv_loop]; auto.
  assert (Pa : sv_pass e (sp_eval p) (sp_bounds p) (length id) method id nd z acc = sv_pass e' (sp_eval p) (sp_bounds p) (length id) method id nd z acc).
  { unfold sv_pass. rewrite HJ by reflexivity. rewrite (HX (fun x => sv_asf e nd id (sp_eval p x) z) (fun x => sv_asf e' nd id (sp_eval p x) z)) by (intros; apply HA). reflexivity. }
  rewrite Pa. destruct (sv_pass e' _ _ _ _ _ _ _ _); cbn [rbind]; auto.
Qed.
Print Assumptions C60_what_is_asked.
(** Refuted: an exact solver, the true ideal point, and a solution is returned that
    breaks the constraint. *)
Theorem C86_infeasible_refuted :
  exists (e : sv_env XR) p V O x,
    honest e /\ succeeds e /\ exact_ceil e /\ uses_asf e /\ proper p /\ sp_nconstr p = 1%nat /\
    (exists id, sp_ideal p = Some id /\ is_ideal p id) /\
    sv_front_problem e p (StFloat (Fin (1/10) : XR)) (Fin (1/1000000) : XR) "scipy_de" = Ok (V, O) /\
    In x V /\ ~ admissible p x /\ (exists c, sp_constr p x = [c] /\ nltb c (nofZ 0) = true).
Proof.
  assert (Hle : rvle [1/2; 0] [1; 1]) by (repeat constructor; lra).
  destruct (unit_front [1/2; 0] [1; 1] (1/10) "scipy_de" (sp_constraints (q2 1)) eq_refl Hle ltac:(lra)) as (V & O & H).
  exists best_env, (q2 1), V, O, (xv [0; 0]).
  split; [exact best_honest|]. split; [exact best_succeeds|]. split; [exact best_ceil|]. split; [intros nd id f q; reflexivity|].
  assert (AD : forall x, admissible (q2 1) x <-> exists a b, x = xv [a; b] /\ 1/2 <= a <= 1 /\ 0 <= b <= 1).
  { intros x. unfold admissible. cbn [q2 sp_bounds sp_nconstr sp_constr]. rewrite unit_within. split.
    - intros ((a & b & -> & Ha & Hb) & HC). specialize (HC ltac:(lia)). cbn [half xv map] in HC. inversion HC as [|? ? H1 _]; subst.
      change (@nsub XR (Fin a : XR) (Fin (1/2) : XR)) with (Fin (a - 1/2) : XR) in H1. change (@nofZ XR 0) with (Fin 0 : XR) in H1. apply xleb_fin in H1. exists a, b. repeat split; lra.
    - intros (a & b & -> & Ha & Hb). split; [exists a, b; repeat split; lra|]. intros _. cbn [half xv map]. constructor; [|constructor].
      change (@nsub XR (Fin a : XR) (Fin (1/2) : XR)) with (Fin (a - 1/2) : XR). change (@nofZ XR 0) with (Fin 0 : XR). apply xleb_fin. lra. }
  split.
  { split; [cbn; lia|]. split.
    - intros x. cbn [q2 sp_eval sp_n]. unfold two_eval. destruct x as [|? [|? [|? ?]]]; reflexivity.
    - intros x Hx. apply AD in Hx. destruct Hx as (a & b & -> & _). cbn [q2 sp_eval]. change (two_eval (xv [a; b])) with (xv [a; b] : list XR).
      constructor; [apply xfinite_iff; eauto|constructor; [apply xfinite_iff; eauto|constructor]]. }
  split; [reflexivity|]. split.
  { exists (xv [1/2; 0]). split; [reflexivity|]. split; [reflexivity|]. intros i a Hi. cbn [q2 sp_eval]. split.
    - exists (xv [1/2; 0]). split; [apply AD; exists (1/2), 0; repeat split; lra|]. exact Hi.
    - intros y b Hy Hb. apply AD in Hy. destruct Hy as (u & v & -> & Hu & Hv). change (two_eval (xv [u; v])) with (xv [u; v] : list XR) in Hb.
      destruct i as [|[|i]]; cbn in Hi, Hb; try (destruct i; discriminate); injection Hi as <-; injection Hb as <-; apply xleb_fin; lra. }
  split; [exact H|]. destruct (unit_in [1/2; 0] [1; 1] (1/10) "scipy_de"%string (sp_constraints (q2 1)) V O eq_refl Hle ltac:(lra) H) as (_ & HV). split; [exact HV|].
  split.
  - intros Q. apply AD in Q. destruct Q as (a & b & E & Ha & _). injection E as E _. lra.
  - eexists. split; [reflexivity|]. change (@nsub XR (Fin 0 : XR) (Fin (1/2) : XR)) with (Fin (0 - 1/2) : XR). change (@nofZ XR 0) with (Fin 0 : XR). apply xltb_fin. lra.
Qed.
Print Assumptions C86_infeasible_refuted.

(** ** The hypotheses are met *)
Lemma nd_le : rvle [0; 0] [1; 1].
Proof. constructor; [lra|constructor; [lra|constructor]]. Qed.
Lemma st_ok : step_is 2 (StFloat (Fin (1/10) : XR)) [1/10; 1/10] /\ Forall (fun s => 0 < s) [1/10; 1/10].
Proof. split; [split; [reflexivity|right; exists (1/10); split; reflexivity]|repeat constructor; lra]. Qed.
Lemma two_fin x : within unit_b x -> exists f, two_eval x = xv f /\ length f = 2%nat.
Proof. intros H. apply unit_within in H. destruct H as (a & b & -> & _). exists [a; b]. split; reflexivity. Qed.
Example C60_hypotheses_met : exists (e : sv_env XR) eval V O,
  honest e /\ exact_ceil e /\ uses_asf e /\ rvle [0; 0] [1; 1] /\ step_is 2 (StFloat (Fin (1/10) : XR)) [1/10; 1/10] /\ Forall (fun s => 0 < s) [1/10; 1/10] /\
  (forall x, within unit_b x -> exists f, eval x = xv f /\ length f = 2%nat) /\
  sv_front e eval 2 unit_b (StFloat (Fin (1/10) : XR)) (Fin (1/1000000) : XR) (Some (xv [0; 0])) (Some (xv [1; 1])) None "scipy_de" = Ok (V, O) /\ In (xv [0; 0]) O.
Proof.
  destruct (unit_front [0; 0] [1; 1] (1/10) "scipy_de" None eq_refl nd_le ltac:(lra)) as (V & O & H).
  exists best_env, two_eval, V, O. split; [exact best_honest|]. split; [exact best_ceil|]. split; [intros nd id f q; reflexivity|]. split; [exact nd_le|].
  split; [apply st_ok|]. split; [apply st_ok|]. split; [exact two_fin|]. split; [exact H|]. exact (proj1 (unit_in [0; 0] [1; 1] (1/10) "scipy_de"%string None V O eq_refl nd_le ltac:(lra) H)).
Qed.
(** A solver whose answers depend on the reference point, and fail for one of them. *)
Definition pick (v : list XR) (ok : bool) : sv_env XR := MkSE (fun _ => Ok (v, ok)) (fun nd id f q => Ok (pm_asf nd id f q)) xceil.
Lemma pick_ceil v ok : exact_ceil (pick v ok).
Proof. exact best_ceil. Qed.
Lemma pick_sane ok : sane (pick (xv [1; 1]) ok) two_eval 2 2.
Proof. intros j x H. injection H as <- H. change (two_eval (xv [1; 1])) with (xv [1; 1] : list XR). repeat split; left; apply xisnan_fin. Qed.
Lemma pick_front ok : exists V O, sv_front (pick (xv [1; 1]) ok) two_eval 2 unit_b (StFloat (Fin (1/10) : XR)) (Fin (1/1000000) : XR) (Some (xv [0; 0])) (Some (xv [1; 1])) None "scipy_de" = Ok (V, O).
Proof.
  apply (C90_accepted (pick (xv [1; 1]) ok) two_eval 2 unit_b (StFloat (Fin (1/10) : XR)) [1/10; 1/10]); try apply st_ok; try discriminate; try reflexivity; try lra.
  - apply pick_ceil.
  - intros z _. exists (xv [1; 1]), ok. split; [reflexivity|]. intros _. split; reflexivity.
Qed.
Lemma pick_answer ok : ref_answer (pick (xv [1; 1]) ok) two_eval unit_b "scipy_de" (xv [0; 0]) (xv [1; 1]) (xv [0; 0]) (xv [1; 1]) ok.
Proof. exists (MkJob (fun x => sv_asf (pick (xv [1; 1]) ok) (xv [1; 1]) (xv [0; 0]) (two_eval x) (xv [0; 0])) unit_b None "scipy_de"%string None). repeat split; reflexivity. Qed.
Example C60_aligned_hypotheses_met : known (xv [0; 0] : list XR) /\ known (xv [1; 1] : list XR) /\ sane (pick (xv [1; 1]) true) two_eval (length unit_b) 2 /\
  exists V O, sv_front (pick (xv [1; 1]) true) two_eval 2 unit_b (StFloat (Fin (1/10) : XR)) (Fin (1/1000000) : XR) (Some (xv [0; 0])) (Some (xv [1; 1])) None "scipy_de" = Ok (V, O) /\ In (xv [1; 1]) O.
Proof.
  split; [apply known_xr; discriminate|]. split; [apply known_xr; discriminate|]. split; [apply pick_sane|].
  destruct (pick_front true) as (V & O & H). exists V, O. split; [exact H|].
  apply (C87_kept_partial (pick (xv [1; 1]) true) two_eval 2 unit_b (StFloat (Fin (1/10) : XR)) [1/10; 1/10] (1/1000000) [0; 0] [1; 1] None "scipy_de" V O (xv [1; 1]));
    try apply st_ok; try discriminate; try lra; try exact nd_le; try exact H; try apply pick_answer; try apply pick_ceil.
  intros j x Hj. destruct (pick_sane true j x Hj) as (_ & B & _ & D). auto.
Qed.
(** The first optimisation fails: a run that loses everything. *)
Example C87_hypotheses_met : exists V O,
  sv_front (pick (xv [1; 1]) false) two_eval 2 unit_b (StFloat (Fin (1/10) : XR)) (Fin (1/1000000) : XR) (Some (xv [0; 0])) (Some (xv [1; 1])) None "scipy_de" = Ok (V, O) /\
  ref_answer (pick (xv [1; 1]) false) two_eval unit_b "scipy_de" (xv [0; 0]) (xv [1; 1]) (xv [0; 0]) (xv [1; 1]) false /\ V = [] /\ O = [].
Proof.
  destruct (pick_front false) as (V & O & H). exists V, O. split; [exact H|]. split; [apply pick_answer|].
  apply (C87_first_failure_refuted (pick (xv [1; 1]) false) two_eval 2 unit_b (StFloat (Fin (1/10) : XR)) [1/10; 1/10] (1/1000000) [0; 0] [1; 1] None "scipy_de" V O (xv [1; 1]));
    try apply st_ok; try discriminate; try lra; try exact nd_le; try exact H; try apply pick_answer; try apply pick_ceil.
Qed.
Example C59_hypotheses_met : exists id nd, honest best_env /\ succeeds best_env /\ proper p3 /\ sv_payoff_problem best_env p3 None "scipy_de" = Ok (id, nd) /\
  (forall i x y a b, admissible p3 x -> admissible p3 y -> nth_error (sp_eval p3 x) i = Some a -> nth_error (sp_eval p3 y) i = Some b ->
     nth_error id i = Some a -> nleb b a = true -> vle (sp_eval p3 x) (sp_eval p3 y)).
Proof.
  destruct p3_payoff as (id & nd & H & (HI & HId) & _). exists id, nd. split; [exact best_honest|]. split; [exact best_succeeds|]. split; [exact p3_proper|]. split; [exact H|].
  intros i x y a b Ax Ay Ha Hb Hid Hle.
  assert (Hi3 : (i < 3)%nat). { change 3%nat with (sp_n p3). rewrite <- HI. apply nth_error_Some. congruence. }
  destruct (p3_at_out i Hi3) as (E0 & Hr). destruct (HId i a Hid) as (_ & Q).
  assert (L0 : nleb a (Fin 0 : XR) = true). { apply (Q [Fin (p3_at i) : XR]); [apply p3_adm; eauto|]. cbn [p3 sp_eval]. rewrite xv_nth, E0. reflexivity. }
  rewrite (p3_unique i x a Hi3 Ha L0), (p3_unique i y b Hi3 Hb (ol_trans XR XR_ord _ _ _ Hle L0)). apply xvle_iff. apply rvle_refl.
Qed.
Example C84_hypotheses_met : selects (N:=XR) 3 1 (xv [0; 1; 0]) /\ nth_error [4; 5; 6] 1 = Some 5.
Proof. split; [split; [reflexivity|]|reflexivity]. intros [|[|[|j]]] w H; cbn in H; try (injection H as <-; reflexivity). destruct j; discriminate. Qed.
(** Two objectives and an exact solver. *)
Lemma two_min i method : (i < 2)%nat ->
  is_min (MkJob (fun x => sv_weighted (two_eval x) (unit_row 2 i)) unit_b None method (Some (map fst unit_b))) (xv [0; 0]).
Proof.
  intros Hi.
  assert (W : forall f, length f = 2%nat -> forall v, nth_error f i = Some v -> sv_weighted (xv f : list XR) (unit_row 2 i) = Ok (Fin v : XR)).
  { intros f Hf v Hv. replace (unit_row (N:=XR) 2 i) with (xv (map (fun j => if Nat.eqb j i then 1 else 0) (seq 0 2))).
    2:{ unfold unit_row, xv. rewrite map_map. apply map_ext. intros j. destruct (Nat.eqb j i); reflexivity. }
    apply (C84_selects_objective 2 i f); auto. pose proof (unit_row_selects (N:=XR) 2 i) as U.
    replace (xv (map (fun j => if Nat.eqb j i then 1 else 0) (seq 0 2))) with (unit_row (N:=XR) 2 i); [exact U|].
    unfold unit_row, xv. rewrite map_map. apply map_ext. intros j. destruct (Nat.eqb j i); reflexivity. }
  split; [split; [apply unit_within; exists 0, 0; repeat split; lra|exact I]|]. cbn [sj_fun sj_bounds sj_constr]. exists (Fin 0 : XR).
  change (two_eval (xv [0; 0])) with (xv [0; 0] : list XR). split.
  - apply W; [reflexivity|]. destruct i as [|[|i]]; [reflexivity|reflexivity|lia].
  - intros y (Hy & _). apply unit_within in Hy. destruct Hy as (a & b & -> & Ha & Hb). change (two_eval (xv [a; b])) with (xv [a; b] : list XR).
    destruct i as [|[|i]]; [| |lia].
    + exists (Fin a : XR). split; [apply W; reflexivity|]. apply xleb_fin. lra.
    + exists (Fin b : XR). split; [apply W; reflexivity|]. apply xleb_fin. lra.
Qed.
Example C85_hypotheses_met : exists id nd, honest best_env /\ succeeds best_env /\ proper (q2 0) /\ sp_n (q2 0) = 2%nat /\ sv_payoff_problem best_env (q2 0) None "scipy_de" = Ok (id, nd) /\
  optimal (q2 0) (xv [0; 0]).
Proof.
  destruct (payoff_total best_env two_eval 2 unit_b None None "scipy_de") as (id & nd & H).
  - lia.
  - intros x. unfold two_eval. destruct x as [|? [|? [|? ?]]]; reflexivity.
  - intros i Hi. destruct (best_finds _ (ex_intro _ _ (two_min i "scipy_de" Hi))) as (x & Hx & _). exists x, true. exact Hx.
  - exists id, nd. split; [exact best_honest|]. split; [exact best_succeeds|].
    assert (AD : forall x, admissible (q2 0) x <-> within unit_b x). { intros x. unfold admissible. cbn [q2 sp_bounds sp_nconstr]. split; [tauto|]. intros Q. split; [exact Q|lia]. }
    split; [|split; [reflexivity|split; [exact H|]]].
    + split; [cbn; lia|]. split; [intros x; cbn [q2 sp_eval sp_n]; unfold two_eval; destruct x as [|? [|? [|? ?]]]; reflexivity|].
      intros x Hx. apply AD in Hx. destruct (two_fin x Hx) as (f & E & _). cbn [q2 sp_eval]. rewrite E. apply Forall_forall. intros v Hv. apply in_map_iff in Hv. destruct Hv as (r & <- & _). apply xfinite_iff. eauto.
    + split; [apply AD; apply unit_within; exists 0, 0; repeat split; lra|].
      intros y Hy (D1 & D2). apply AD in Hy. apply unit_within in Hy. destruct Hy as (a & b & -> & Ha & Hb). cbn [q2 sp_eval] in D1, D2.
      change (two_eval (xv [a; b])) with (xv [a; b] : list XR) in *. change (two_eval (xv [0; 0])) with (xv [0; 0] : list XR) in *.
      apply D2. apply xvle_iff. constructor; [lra|constructor; [lra|constructor]].
Qed.
Example C89_hypotheses_met : unknown [(XMInf : XR); XMInf] /\ known [(XMInf : XR); (Fin 0 : XR)] /\ nisinf (XMInf : XR) = true.
Proof.
  split; [intros x [<-|[<-|[]]]; reflexivity|]. split; [|reflexivity]. destruct (known_xr [0] ltac:(discriminate)) as (x & Hx & E). exists x. split; [right; exact Hx|exact E].
Qed.
(** The unit square with steps of a tenth, and its two corners. *)
Example C88_hypotheses_met : on_grid (1/1000000) [0; 0] [1; 1] [1/10; 1/10] [0; 0] /\ on_grid (1/1000000) [0; 0] [1; 1] [1/10; 1/10] [1; 1] /\ ~ on_grid (1/1000000) [0; 0] [1; 1] [1/10; 1/10] [1/20; 0].
Proof.
  assert (C : on_grid (1/1000000) [0; 0] [1; 1] [1/10; 1/10] [0; 0] /\ on_grid (1/1000000) [0; 0] [1; 1] [1/10; 1/10] [1; 1]).
  { destruct (C88_corners (1/1000000) [0; 0] [1; 1] [1/10; 1/10]) as (A & B); [lra|reflexivity|exact nd_le|]. split; [exact A|]. apply B.
    intros i l u s H1 H2 H3. exists 10%nat. assert (E : INR 10 = 10) by (cbn; lra).
    destruct i as [|[|i]]; cbn in H1, H2, H3; try (destruct i; discriminate); injection H1 as <-; injection H2 as <-; injection H3 as <-; rewrite E; lra. }
  destruct C as (A & B). split; [exact A|]. split; [exact B|]. intros Q. inversion Q as [|lo up s z los ups ss zs i Ez Hz Hr]; subst.
  destruct i as [|i]; [cbn in Ez; lra|]. rewrite S_INR in Ez. pose proof (pos_INR i). lra.
Qed.
