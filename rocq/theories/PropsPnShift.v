(** * C116: Pareto Navigator, constants added to the objectives. *)
From Coq Require Import ZArith Reals Lra List Bool Lia Floats.
From Verif Require Import Num NumXR NumF64 Py Np Spec NpFacts XRFacts SNavShift PNavShift PNautShift MRpm MParetoNav SParetoNav SPnShift PPnShift.
Import ListNotations.

(** Two objects whose problems, ideal, nadir and given solutions differ by the constants
    [t], with a hull and a linear solver that move with the data; any history of
    corresponding answers that start the navigation from one of the shown solutions and
    classify all objectives: every vector of objective values shown (current solution,
    ideal, nadir, projected solution) differs by [t]; decision vectors, accepted answers
    and exceptions are the same. *)
Theorem C116_constants_partial :
  forall (t : list R) (e1 e2 : pn_env XR) (ideal0 nadir0 : list XR) given s1 s2 qs,
  moved_pn_env t e1 e2 -> length ideal0 = length t -> length nadir0 = length t -> (forall m, given = Some m -> is_matrix (length t) m) ->
  pn_shifted t e1 e2 ideal0 nadir0 given s1 s2 qs ->
  (forall q1 q2, In (q1, q2) qs -> q2 = moved_pn t q1) /\
  (forall q1 q2 d, In (q1, q2) qs -> pn_validate q2 (moved_pn_answer t d) = pn_validate q1 d) /\
  (forall q1 q2 resp, In (q1, q2) qs -> (forall d, resp = Some d -> pn_validate q1 d = Ok tt /\ pn_tame (length t) q1 d) ->
     snd (pn_iterate e2 q2 (option_map (moved_pn_answer t) resp) s2) = rmap (moved_pn t) (snd (pn_iterate e1 q1 resp s1))).
Proof.
  intros t e1 e2 ideal0 nadir0 given s1 s2 qs ME Hi Hn Hg T.
  pose proof (shifted_inv t e1 e2 ME ideal0 nadir0 given s1 s2 qs Hi Hn Hg T) as (W & HQ). rewrite Forall_forall in HQ. split; [|split].
  - intros q1 q2 Hin. exact (proj1 (HQ _ Hin)).
  - intros q1 q2 d Hin. destruct (HQ _ Hin) as [E WQ]. cbn [fst snd] in E, WQ. rewrite E. apply validate_moved. exact WQ.
  - intros q1 q2 resp Hin HV. destruct (HQ _ Hin) as [E WQ]. cbn [fst snd] in E, WQ. rewrite E.
    pose proof (iterate_moved t e1 e2 ME q1 resp s1 s2 W WQ HV) as (_ & R).
    destruct (snd (pn_iterate e1 q1 resp s1)) as [a|x], (snd (pn_iterate e2 (moved_pn t q1) (option_map (moved_pn_answer t) resp) s2)) as [b|x'];
      cbn [rr] in R; try contradiction; cbn [rmap]; [destruct R as [-> _]; reflexivity|congruence].
Qed.
Print Assumptions C116_constants_partial.

(** The constructor and start. *)
Theorem C116_start :
  forall (t : list R) (e1 e2 : pn_env XR) (ideal0 nadir0 : list XR) given,
  moved_pn_env t e1 e2 -> length ideal0 = length t -> length nadir0 = length t -> (forall m, given = Some m -> is_matrix (length t) m) ->
  rmap pn_start (pn_ctor e2 (moved t ideal0) (moved t nadir0) (option_map (moved_rows t) given)) =
  rmap (fun s => moved_pn t (pn_start s)) (pn_ctor e1 ideal0 nadir0 given).
Proof.
  intros t e1 e2 ideal0 nadir0 given ME Hi Hn Hg. pose proof (ctor_moved t e1 e2 ME ideal0 nadir0 given Hi Hn Hg) as R.
  destruct (pn_ctor e1 ideal0 nadir0 given) as [a|x], (pn_ctor e2 (moved t ideal0) (moved t nadir0) (option_map (moved_rows t) given)) as [b|x'];
    cbn [rr] in R; try contradiction; cbn [rmap]; [|congruence]. unfold pn_start. destruct (r_ideal _ _ _ R) as [-> _]. destruct (r_nadir _ _ _ R) as [-> _]. destruct (r_pos _ _ _ R) as [-> _]. reflexivity.
Qed.
Print Assumptions C116_start.

(** Every session has its counterpart: the second object answers a request whenever the
    first does. *)
Theorem C116_counterpart :
  forall (t : list R) (e1 e2 : pn_env XR) (ideal0 nadir0 : list XR) given s1 s2 qs q1 q2 resp s1' q1',
  moved_pn_env t e1 e2 -> length ideal0 = length t -> length nadir0 = length t -> (forall m, given = Some m -> is_matrix (length t) m) ->
  pn_shifted t e1 e2 ideal0 nadir0 given s1 s2 qs -> In (q1, q2) qs ->
  (forall d, resp = Some d -> pn_validate q1 d = Ok tt /\ pn_tame (length t) q1 d) ->
  pn_iterate e1 q1 resp s1 = (s1', Ok q1') ->
  exists s2', pn_shifted t e1 e2 ideal0 nadir0 given s1' s2' ((q1', moved_pn t q1') :: qs).
Proof.
  intros t e1 e2 ideal0 nadir0 given s1 s2 qs q1 q2 resp s1' q1' ME Hi Hn Hg T Hin HV E.
  destruct (C116_constants_partial t e1 e2 ideal0 nadir0 given s1 s2 qs ME Hi Hn Hg T) as (_ & _ & HO). specialize (HO q1 q2 resp Hin HV).
  destruct (pn_iterate e2 q2 (option_map (moved_pn_answer t) resp) s2) as [s2' out2] eqn:E2. rewrite E in HO. cbn [snd rmap] in HO. subst out2.
  exists s2'. exact (pn_shifted_step t e1 e2 ideal0 nadir0 given s1 s2 qs q1 q2 resp s1' _ s2' _ T Hin HV E E2).
Qed.
Print Assumptions C116_counterpart.

(** A hull of one plane (the first point has the smallest sum) and the linear solver that
    solves the programs that arise from it. *)
Definition x_hull (pts : list (list XR)) : res (list (list XR)) :=
  match pts with (a :: b :: _) :: _ => Ok [[nofZ (-1); nofZ (-1); nadd a b]] | _ => Raise ValueErr end.
Definition x_is (A : list (list XR)) : bool :=
  match A with
  | [[_; a; b]; [_; c; d]; [_; p; q]] => neqb a (nofZ 1) && neqb b (nofZ 0) && neqb c (nofZ 0) && neqb d (nofZ 1) && neqb p (nofZ (-1)) && neqb q (nofZ (-1))
  | _ => false
  end.
Definition x_lp (c : list XR) (A : list (list XR)) (b : list XR) (bnds : list (option XR * option XR)) : res (option (list XR)) :=
  if x_is A then
    match b with
    | [m1; m2; b3] => let g := nmul (Fin (1/2) : XR) (nadd (nadd m1 m2) b3) in Ok (Some [nofZ 0; nsub m1 g; nsub m2 g])
    | _ => Ok None
    end
  else Ok None.
Definition x_t : list R := [5; -7]%R.
Definition x_data : list (list XR) := [xv [0; 1]; xv [1; 0]]%R.
Definition x_e1 : pn_env XR := MkPE (PDisc x_data [xv [10]; xv [20]]%R) x_hull x_lp.
Definition x_e2 : pn_env XR := MkPE (PDisc (moved_rows x_t x_data) [xv [10]; xv [20]]%R) x_hull x_lp.
Lemma x_env : moved_pn_env x_t x_e1 x_e2.
Proof.
  split; [reflexivity|]. split; [reflexivity|]. split; [|split].
  - intros pts Hp. destruct Hp as [|r pts Hr Hp]; [split; [reflexivity|discriminate]|]. destruct r as [|a [|b [|c r]]]; try discriminate.
    split; [|intros eqs [= <-]; repeat constructor]. cbn [moved_rows map moved x_t pe_hull x_e1 x_hull rmap]. do 3 f_equal. unfold moved_plane.
    destruct a as [| | |a], b as [| | |b]; cbn; try reflexivity. do 3 f_equal. f_equal. lra.
  - intros A b bnds HL HB. cbv zeta. cbn [pe_lp x_e1]. unfold x_lp. destruct (x_is A) eqn:EX; [|split; [reflexivity|discriminate]].
    destruct A as [|[|a1 [|a [|b1 [|]]]] [|[|a2 [|c [|d [|]]]] [|[|a3 [|p [|q [|]]]] [|]]]]; try discriminate EX.
    destruct b as [|m1 [|m2 [|b3 [|]]]]; try discriminate HL. split; [|intros x [= <-]; reflexivity].
    cbn [x_is] in EX. rewrite !andb_true_iff in EX. destruct EX as (((((E1 & E2) & E3) & E4) & E5) & E6).
    assert (XE : forall (x : XR) z, neqb x (nofZ z : XR) = true -> x = Fin (IZR z)).
    { intros x z H. change (xleb x (Fin (IZR z)) && xleb (Fin (IZR z)) x = true) in H. apply andb_true_iff in H. destruct H as [H1 H2].
      destruct x as [| | |x]; try (cbn in H1, H2; first [discriminate H1|discriminate H2]). apply xleb_fin in H1, H2. f_equal. lra. }
    apply XE in E1, E2, E3, E4, E5, E6. subst.
    unfold moved_rhs, dot_t, vsum. cbn [zipw tl xv map x_t fold_left rmap option_map moved_tail moved].
    destruct m1 as [| | |m1], m2 as [| | |m2], b3 as [| | |b3]; cbn; unfold xmul, xsign; cbn;
      repeat match goal with |- context [Rlt_dec ?u ?v] => destruct (Rlt_dec u v); try lra end; cbn; try reflexivity;
      do 2 f_equal; repeat (f_equal; try lra).
  - cbn. repeat split; repeat constructor.
Qed.

(** Constructor, start, the first given solution with speed 1, then the classification
    ">", "<": the current solution goes from (0, 1) to (1/50, 49/50), and by the constants
    (5, -7) of it in the other object. *)
Definition x_w : list XR := [Fin 1; Fin 1].
Definition x_A : list (list XR) := [[Fin (-1); Fin 1; Fin 0]; [Fin (-1); Fin 0; Fin 1]; [Fin 0; Fin (-1); Fin (-1)]].
Definition x_b : list XR := [Fin (-1)].
Definition x_s0 : pn_state XR := MkPS (xv [0; 0]%R) (xv [1; 1]%R) x_w x_A x_b x_data None None None None.
Lemma x_finite (r : R) : nisinf (N := XR) (Fin r) = false.
Proof.
  assert (L : forall x : R, xleb (Fin x) (Fin x) = true) by (intros x; apply xleb_fin; lra).
  unfold nisinf, nisnan. change (@nsub XR (Fin r) (Fin r)) with (Fin (r - r)). change (@neqb XR) with xeqb. unfold xeqb. rewrite !L. reflexivity.
Qed.
Lemma x_hull_is : pn_polyhedral x_e1 x_data = Ok ([[Fin (-1); Fin (-1)]] : list (list XR), x_b).
Proof.
  unfold pn_polyhedral. cbn [pe_hull x_e1 x_hull x_data xv map rbind]. unfold pn_split, x_b. cbn [map removelast last].
  replace (@nmul XR (nofZ (-1)) (@nadd XR (Fin 0%R) (Fin 1%R))) with (Fin (-1)%R : XR); [reflexivity|].
  change (Fin (-1)%R = Fin (-1 * (0 + 1))%R). f_equal. lra.
Qed.
Lemma x_weights : pn_weights (xv [0; 0]%R) (xv [1; 1]%R) = Ok x_w.
Proof.
  unfold pn_weights, bcast2. cbn [xv map length Nat.eqb zipw rbind]. unfold x_w.
  assert (D : ndiv (nofZ 1 : XR) (@nsub XR (Fin 1%R) (Fin 0%R)) = Fin 1%R).
  { change (@nsub XR (Fin 1%R) (Fin 0%R)) with (Fin (1 - 0)%R). change (nofZ 1 : XR) with (Fin 1%R). rewrite xdiv_fin by lra. f_equal. field; lra. }
  rewrite D. reflexivity.
Qed.
Lemma x_rows : pn_lppp x_w [[Fin (-1); Fin (-1)]] = Ok x_A.
Proof.
  unfold pn_lppp, x_w, x_A. cbn [length forallb Nat.eqb andb seq zipw map app]. 
  assert (D : ndiv (nofZ (-1) : XR) (Fin 1%R) = Fin (-1)%R).
  { change (nofZ (-1) : XR) with (Fin (-1)%R). rewrite xdiv_fin by lra. f_equal. field; lra. }
  rewrite D. reflexivity.
Qed.
Lemma x_ctor : pn_ctor x_e1 (xv [0; 0]%R) (xv [1; 1]%R) None = Ok x_s0.
Proof.
  unfold pn_ctor. unfold any_inf. cbn [xv map existsb]. rewrite !x_finite. cbn [orb pe_prob x_e1 rbind fst snd].
  change (pn_polyhedral {| pe_prob := PDisc x_data [[Fin 10%R]; [Fin 20%R]]; pe_hull := x_hull; pe_lp := x_lp |} x_data) with (pn_polyhedral x_e1 x_data).
  rewrite x_hull_is. cbn [rbind fst snd].
  change (@pn_weights XR [Fin 0%R; Fin 0%R] [Fin 1%R; Fin 1%R]) with (@pn_weights XR (xv [0; 0]%R) (xv [1; 1]%R)). rewrite x_weights. cbn [rbind fst snd]. rewrite x_rows. reflexivity.
Qed.

(** The two answers. *)
Definition x_a1 : pn_dict XR := MkPD None (Some (PIdx 0)) (Some (VInt 1)) None None None None.
Definition x_a2 : pn_dict XR := MkPD None None None None None (Some [CGreater; CLess]) None.
Definition x_q1 : pn_request XR := PReq (CVec (xv [0; 1]%R)) (xv [0; 0]%R) (xv [1; 1]%R).
Definition x_q2 : pn_request XR := PReq (CVec (xv [1 / 50; 49 / 50]%R)) (xv [0; 0]%R) (xv [1; 1]%R).
Definition x_s1 : pn_state XR := p_speed (p_cur x_s0 (Some (CVec (xv [0; 1]%R)))) (Some (Fin (1 / 50)%R : XR)).
Lemma x_speed : ndiv (ndiv (nofZ 1) (nofZ 5)) (nofZ 10) = (Fin (1 / 50)%R : XR).
Proof.
  change (nofZ 1 : XR) with (Fin 1%R). change (nofZ 5 : XR) with (Fin 5%R). change (nofZ 10 : XR) with (Fin 10%R).
  rewrite xdiv_fin by lra. rewrite xdiv_fin by lra. f_equal. lra.
Qed.
Lemma x_first : pn_iterate x_e1 (pn_start x_s0) (Some x_a1) x_s0 = (x_s1, Ok x_q1).
Proof. unfold x_s1. rewrite <- x_speed. reflexivity. Qed.
Lemma x_is_A : x_is x_A = true.
Proof.
  assert (L : forall x : R, xeqb (Fin x) (Fin x) = true) by (intros x; unfold xeqb; rewrite andb_true_iff; split; apply xleb_fin; lra).
  unfold x_is, x_A. change (@neqb XR) with xeqb. cbn [nofZ XR]. rewrite !L. reflexivity.
Qed.
Lemma x_solve : forall a : XR, a = Fin (1 / 50)%R -> pn_solve x_e1 (CVec (xv [0; 1]%R)) (xv [0; 0]%R) (xv [1; 1]%R) [@nsub XR (Fin 1%R) (Fin 0%R); @nsub XR (Fin 0%R) (Fin 1%R)] a x_A x_b =
  Ok (xv [1 / 50; 49 / 50]%R).
Proof.
  intros a ->. unfold pn_solve, bcast2, vscale. cbn [xv map length Nat.eqb zipw rbind negb pe_lp x_e1]. unfold x_lp. rewrite x_is_A. unfold x_b. cbn [app tl rbind].
  change (Ok [Fin (0 + 1 / 50 * (1 - 0) - 1 / 2 * (0 + 1 / 50 * (1 - 0) + (1 + 1 / 50 * (0 - 1)) + -1)); Fin (1 + 1 / 50 * (0 - 1) - 1 / 2 * (0 + 1 / 50 * (1 - 0) + (1 + 1 / 50 * (0 - 1)) + -1))]%R = Ok (A := list XR) [Fin (1 / 50); Fin (49 / 50)]%R).
  match goal with |- Ok [Fin ?u; Fin ?v] = _ => replace u with (1 / 50)%R by lra; replace v with (49 / 50)%R by lra end. reflexivity.
Qed.
Definition x_s2 : pn_state XR := p_cur (p_ref (p_speed x_s1 (Some (Fin (1 / 50)%R : XR))) (Some (xv [1; 0]%R))) (Some (CVec (xv [1 / 50; 49 / 50]%R))).
Lemma x_abs : nabs (Fin (1 / 50)%R : XR) = Fin (1 / 50)%R.
Proof. change (Fin (Rabs (1 / 50)) = Fin (1 / 50)%R). f_equal. apply Rabs_pos_eq. lra. Qed.
Lemma x_second : pn_iterate x_e1 x_q1 (Some x_a2) x_s1 = (x_s2, Ok x_q2).
Proof.
  unfold pn_iterate, x_q1, pn_handle, sbind, sget, lift, smod, sret, attr, x_s2.
  cbn -[pn_solve x_e1 x_A x_b nabs nsub]. rewrite x_abs.
  match goal with |- context [pn_solve ?a ?b ?c ?d ?e ?f ?g ?h] => pose proof (x_solve (Fin (1 / 50)%R) eq_refl) as X; change (pn_solve a b c d e f g h) with (pn_solve x_e1 (CVec (xv [0; 1]%R)) (xv [0; 0]%R) (xv [1; 1]%R) [@nsub XR (Fin 1%R) (Fin 0%R); @nsub XR (Fin 0%R) (Fin 1%R)] (Fin (1 / 50)%R) x_A x_b) end.
  rewrite X. reflexivity.
Qed.

Example C116_hypotheses_met :
  moved_pn_env x_t x_e1 x_e2 /\ is_matrix (N := XR) 2 x_data /\
  exists s2 qs, pn_shifted x_t x_e1 x_e2 (xv [0; 0]%R) (xv [1; 1]%R) None x_s2 s2 ((x_q2, moved_pn x_t x_q2) :: qs) /\
    moved_pn x_t x_q2 = PReq (CVec (xv [1 / 50 + 5; 49 / 50 + -7]%R)) (xv [0 + 5; 0 + -7]%R) (xv [1 + 5; 1 + -7]%R).
Proof.
  split; [exact x_env|]. split; [repeat constructor|].
  assert (G : forall m : list (list XR), None = Some m -> is_matrix (length x_t) m) by discriminate.
  pose proof (C116_start x_t x_e1 x_e2 (xv [0; 0]%R) (xv [1; 1]%R) None x_env eq_refl eq_refl G) as S0. rewrite x_ctor in S0. cbn [rmap] in S0.
  destruct (pn_ctor x_e2 (moved x_t (xv [0; 0]%R)) (moved x_t (xv [1; 1]%R)) (option_map (moved_rows x_t) None)) as [s2|x] eqn:C2; [|discriminate].
  cbn [rmap] in S0. assert (S0' : pn_start s2 = moved_pn x_t (pn_start x_s0)) by (exact (f_equal (fun r => match r with Ok a => a | Raise _ => pn_start s2 end) S0)).
  pose proof (pn_shifted_init x_t x_e1 x_e2 (xv [0; 0]%R) (xv [1; 1]%R) None x_s0 s2 x_ctor C2) as T0.
  apply pn_shifted_start in T0.
  destruct (C116_counterpart x_t x_e1 x_e2 (xv [0; 0]%R) (xv [1; 1]%R) None _ _ _ _ _ (Some x_a1) x_s1 x_q1 x_env eq_refl eq_refl G T0 (or_introl eq_refl)) as (s3 & T1).
  { intros d [= <-]. split; reflexivity. }
  { exact x_first. }
  destruct (C116_counterpart x_t x_e1 x_e2 (xv [0; 0]%R) (xv [1; 1]%R) None _ _ _ _ _ (Some x_a2) x_s2 x_q2 x_env eq_refl eq_refl G T1 (or_introl eq_refl)) as (s4 & T2).
  { intros d [= <-]. split; [reflexivity|]. intros l [= <-]. reflexivity. }
  { exact x_second. }
  exists s4. eexists. split; [exact T2|reflexivity].
Qed.

(** Not so for a navigation that starts from a reference point: the solution of
    the scalar problem is a decision vector, which is shown, and navigated from, as if
    it were a vector of objective values.  Objectives (x1, x2) and (x1 + 4, x2); the two
    objects show the same current solution. *)
Definition y_pts : list (list F64) := [[0; 1]; [1; 0]]%float.
Definition y_pts' : list (list F64) := [[4; 1]; [5; 0]]%float.
Definition y_min (u : bool) (q : list F64) : res (option (list F64)) := Ok (Some [0x1p-1; 0x1p-1]%float).
Definition y_ev (x : list F64) : list F64 := x.
Definition y_ev' (x : list F64) : list F64 := match x with [a; b] => [nadd (4%float : F64) a; b] | _ => x end.
Definition y_hull (pts : list (list F64)) : res (list (list F64)) :=
  match pts with (a :: b :: _) :: _ => Ok [[nofZ (-1); nofZ (-1); nadd a b]] | _ => Raise ValueErr end.
Definition y_lp (c : list F64) (A : list (list F64)) (b : list F64) (bnds : list (option F64 * option F64)) : res (option (list F64)) :=
  match b with
  | [m1; m2; b3] => let g := nmul (0x1p-1%float : F64) (nadd (nadd m1 m2) b3) in Ok (Some [nofZ 0; nsub m1 g; nsub m2 g])
  | _ => Ok None
  end.
Definition y_e : pn_env F64 := MkPE (PMO y_ev y_min) y_hull y_lp.
Definition y_e' : pn_env F64 := MkPE (PMO y_ev' y_min) y_hull y_lp.
Definition y_get (r : res (pn_state F64)) : pn_state F64 := match r with Ok s => s | Raise _ => MkPS [] [] [] [] [] [] None None None None end.
Definition y_i : list F64 := [0; 0]%float.
Definition y_n : list F64 := [1; 1]%float.
Definition y_i' : list F64 := [4; 0]%float.
Definition y_n' : list F64 := [5; 1]%float.
Definition y_s : pn_state F64 := y_get (pn_ctor y_e y_i y_n (Some y_pts)).
Definition y_s' : pn_state F64 := y_get (pn_ctor y_e' y_i' y_n' (Some y_pts')).
Definition y_a : pn_dict F64 := MkPD (Some (RArr ([0x1p-2; 0x1p-1]%float : list F64))) None (Some (VInt 1)) None None None None.
Definition y_a' : pn_dict F64 := MkPD (Some (RArr ([0x1.1p2; 0x1p-1]%float : list F64))) None (Some (VInt 1)) None None None None.
Definition y_c : list F64 := [0x1p-1; 0x1p-1]%float.
Definition y_q : pn_request F64 := PReq (CVec y_c) y_i y_n.
Definition y_q' : pn_request F64 := PReq (CVec y_c) y_i' y_n'.
Theorem C116_reference_start_refuted :
  pn_ctor y_e y_i y_n (Some y_pts) = Ok y_s /\ pn_ctor y_e' y_i' y_n' (Some y_pts') = Ok y_s' /\
  pn_validate (pn_start y_s) y_a = Ok tt /\ pn_validate (pn_start y_s') y_a' = Ok tt /\
  snd (pn_iterate y_e (pn_start y_s) (Some y_a) y_s) = Ok (PReq (CVec y_c) y_i y_n) /\
  snd (pn_iterate y_e' (pn_start y_s') (Some y_a') y_s') = Ok (PReq (CVec y_c) y_i' y_n').
Proof.
  split; [vm_cast_no_check (eq_refl (Ok y_s))|]. split; [vm_cast_no_check (eq_refl (Ok y_s'))|]. split; [vm_cast_no_check (eq_refl (Ok tt))|]. split; [vm_cast_no_check (eq_refl (Ok tt))|].
  split; [vm_cast_no_check (eq_refl (Ok y_q))|vm_cast_no_check (eq_refl (Ok y_q'))].
Qed.
Print Assumptions C116_reference_start_refuted.

(** Nor for a classification with too few entries, which is accepted: the single entry "<"
    stands for the reference point whose only number, the ideal value of the first
    objective, numpy subtracts the current values of all objectives from.  Objectives
    (z1, z2) and (z1, z2 + 4): navigating from (0, 1), respectively (0, 5), the first
    objective, which is the same in both problems, is more than four times as large in
    the second object. *)
Definition z_data : list (list F64) := [[0; 1]; [1; 0]]%float.
Definition z_data' : list (list F64) := [[0; 5]; [1; 4]]%float.
Definition z_dec : list (list F64) := [[10]; [20]]%float.
Definition z_e : pn_env F64 := MkPE (PDisc z_data z_dec) y_hull y_lp.
Definition z_e' : pn_env F64 := MkPE (PDisc z_data' z_dec) y_hull y_lp.
Definition z_i' : list F64 := [0; 4]%float.
Definition z_n' : list F64 := [1; 5]%float.
Definition z_s : pn_state F64 := y_get (pn_ctor z_e y_i y_n None).
Definition z_s' : pn_state F64 := y_get (pn_ctor z_e' z_i' z_n' None).
Definition z_a1 : pn_dict F64 := MkPD None (Some (PIdx 0)) (Some (VInt 1)) None None None None.
Definition z_a2 : pn_dict F64 := MkPD None None None None None (Some [CLess]) None.
Definition z_first (e : pn_env F64) (s : pn_state F64) := pn_iterate e (pn_start s) (Some z_a1) s.
Definition z_q1 : pn_request F64 := PReq (CVec ([0; 1]%float : list F64)) y_i y_n.
Definition z_q1' : pn_request F64 := PReq (CVec ([0; 5]%float : list F64)) z_i' z_n'.
Definition z_v (r : res (pn_request F64)) : list F64 := match r with Ok (PReq (CVec v) _ _) => v | _ => [] end.
Definition z_r : list F64 := Eval vm_compute in z_v (snd (pn_iterate z_e z_q1 (Some z_a2) (fst (z_first z_e z_s)))).
Definition z_r' : list F64 := Eval vm_compute in z_v (snd (pn_iterate z_e' z_q1' (Some z_a2) (fst (z_first z_e' z_s')))).
Definition z_u : F64 := nth 0 z_r (0%float : F64).
Definition z_u' : F64 := nth 0 z_r' (0%float : F64).
Definition z_q2 : pn_request F64 := PReq (CVec z_r) y_i y_n.
Definition z_q2' : pn_request F64 := PReq (CVec z_r') z_i' z_n'.
Theorem C116_short_classification_refuted :
  pn_ctor z_e y_i y_n None = Ok z_s /\ pn_ctor z_e' z_i' z_n' None = Ok z_s' /\
  pn_validate (pn_start z_s) z_a1 = Ok tt /\ pn_validate (pn_start z_s') z_a1 = Ok tt /\
  snd (z_first z_e z_s) = Ok z_q1 /\ snd (z_first z_e' z_s') = Ok z_q1' /\
  pn_validate z_q1 z_a2 = Ok tt /\ pn_validate z_q1' z_a2 = Ok tt /\
  snd (pn_iterate z_e z_q1 (Some z_a2) (fst (z_first z_e z_s))) = Ok (PReq (CVec z_r) y_i y_n) /\
  snd (pn_iterate z_e' z_q1' (Some z_a2) (fst (z_first z_e' z_s'))) = Ok (PReq (CVec z_r') z_i' z_n') /\
  nltb (nmul (4%float : F64) z_u) z_u' = true.
Proof.
  split; [vm_cast_no_check (eq_refl (Ok z_s))|]. split; [vm_cast_no_check (eq_refl (Ok z_s'))|].
  split; [vm_cast_no_check (eq_refl (Ok tt))|]. split; [vm_cast_no_check (eq_refl (Ok tt))|].
  split; [vm_cast_no_check (eq_refl (Ok z_q1))|]. split; [vm_cast_no_check (eq_refl (Ok z_q1'))|].
  split; [vm_cast_no_check (eq_refl (Ok tt))|]. split; [vm_cast_no_check (eq_refl (Ok tt))|].
  split; [vm_cast_no_check (eq_refl (Ok z_q2))|]. split; [vm_cast_no_check (eq_refl (Ok z_q2'))|].
  vm_cast_no_check (eq_refl true).
Qed.
Print Assumptions C116_short_classification_refuted.
