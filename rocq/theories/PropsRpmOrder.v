(** * C117: reference point method, objectives listed in another order. *)
From Coq Require Import ZArith Reals Lra List Bool Lia Floats Permutation.
From Verif Require Import Num NumXR NumF64 Py Np Spec NpFacts XRFacts MAsf MRpm SRpm SRpmOrder POrder PRpmOrder.
Import ListNotations.

(** Two objects whose problems, ideal and nadir list the same [k] objectives, the second in
    the order [p]; any history of corresponding answers: the requests correspond (objective
    vectors rearranged, decision vectors the same), the same answers are accepted, and a
    call returns if and only if the corresponding one does. *)
Theorem C117_order_partial :
  forall (p : list nat) k (p1 p2 : rp_problem XR) rho eps (ideal nadir : list XR) s1 s2 qs,
  Permutation p (seq 0 k) -> rp_arranged_problem p k p1 p2 -> length ideal = k -> length nadir = k ->
  rp_parallel p k p1 p2 rho eps ideal nadir s1 s2 qs ->
  (forall q1 q2, In (q1, q2) qs -> q2 = arranged_req p q1) /\
  (forall q1 q2 d1 d2, In (q1, q2) qs -> arranged_answer p k d1 d2 ->
     rp_validate (arranged p ideal) (arranged p nadir) q2 d2 = rp_validate ideal nadir q1 d1) /\
  (forall q1 q2 resp1 resp2, In (q1, q2) qs ->
     both (fun d1 d2 => arranged_answer p k d1 d2 /\ rp_validate ideal nadir q1 d1 = Ok tt) resp1 resp2 ->
     same_outcome (fun r1 r2 => r2 = arranged_req p r1)
       (snd (rp_iterate p1 rho eps ideal nadir q1 resp1 s1)) (snd (rp_iterate p2 rho eps (arranged p ideal) (arranged p nadir) q2 resp2 s2))).
Proof.
  intros p k p1 p2 rho eps ideal nadir s1 s2 qs HP HPB HI HN T.
  destruct (parallel_inv p k HP p1 p2 HPB rho eps ideal nadir HI HN s1 s2 qs T) as (W & -> & HQ). rewrite Forall_forall in HQ. split; [|split].
  - intros q1 q2 Hin. exact (proj1 (HQ _ Hin)).
  - intros q1 q2 d1 d2 Hin HA. destruct (HQ _ Hin) as [E RO]. cbn [fst snd] in E, RO. subst q2. apply (validate_arr p k HP ideal nadir HI HN); assumption.
  - intros q1 q2 resp1 resp2 Hin HB. destruct (HQ _ Hin) as [E RO]. cbn [fst snd] in E, RO. subst q2.
    destruct (iterate_arr p k HP p1 p2 HPB rho eps ideal nadir HI HN q1 resp1 resp2 s1 W RO HB) as (_ & _ & R).
    destruct (snd (rp_iterate p1 rho eps ideal nadir q1 resp1 s1)), (snd (rp_iterate p2 rho eps (arranged p ideal) (arranged p nadir) (arranged_req p q1) resp2 (ms p s1)));
      cbn [same_outcome] in *; try contradiction; auto. exact (proj1 R).
Qed.
Print Assumptions C117_order_partial.

(** Every answer with a reference point for [k] objectives has a corresponding one ... *)
Theorem C117_answers :
  forall (p : list nat) k (d1 : rp_dict XR), Permutation p (seq 0 k) -> (forall q, rd_ref d1 = Some (RArr q) -> length q = k) ->
  exists d2, arranged_answer p k d1 d2.
Proof.
  intros p k [r sat i] HP HL. cbn [rd_ref] in HL.
  assert (HR : exists r2, both (arranged_ref p k) r r2).
  { destruct r as [[q| |]|]; [exists (Some (RArr (arranged p q)))|exists (Some RArrND)|exists (Some RNoArr)|exists None]; cbn; try constructor. apply HL. reflexivity. }
  assert (HX : exists i2, both (arranged_index p k) i i2).
  { destruct i as [i|]; [|exists None; exact Logic.I]. destruct (as_int i) as [z|] eqn:E.
    - destruct (Z_le_dec z 0) as [L|L]; [exists (Some i); constructor; intros z' Hz; rewrite E in Hz; injection Hz as <-; lia|].
      destruct (Z_lt_dec (Z.of_nat k) z) as [G|G]; [exists (Some i); constructor; intros z' Hz; rewrite E in Hz; injection Hz as <-; lia|].
      assert (Hin : In (Z.to_nat (z - 1)) p) by (apply (Permutation_in _ (Permutation_sym HP)), in_seq; lia).
      apply In_nth_error in Hin. destruct Hin as [b Hb]. exists (Some (VInt (Z.of_nat (S b)))). cbn [both]. apply ai_moved with (Z.to_nat (z - 1)); [rewrite E; f_equal; lia|exact Hb].
    - exists (Some i). constructor. intros z Hz. congruence. }
  destruct HR as [r2 HR], HX as [i2 HX]. exists (MkRD r2 sat i2). split; [reflexivity|]. split; assumption.
Qed.
Print Assumptions C117_answers.

(** ... and every session has its counterpart. *)
Theorem C117_counterpart :
  forall (p : list nat) k (p1 p2 : rp_problem XR) rho eps (ideal nadir : list XR) s1 s2 qs q1 q2 resp1 resp2 s1' q1',
  Permutation p (seq 0 k) -> rp_arranged_problem p k p1 p2 -> length ideal = k -> length nadir = k ->
  rp_parallel p k p1 p2 rho eps ideal nadir s1 s2 qs -> In (q1, q2) qs ->
  both (fun d1 d2 => arranged_answer p k d1 d2 /\ rp_validate ideal nadir q1 d1 = Ok tt) resp1 resp2 ->
  rp_iterate p1 rho eps ideal nadir q1 resp1 s1 = (s1', Ok q1') ->
  exists s2', rp_parallel p k p1 p2 rho eps ideal nadir s1' s2' ((q1', arranged_req p q1') :: qs).
Proof.
  intros p k p1 p2 rho eps ideal nadir s1 s2 qs q1 q2 resp1 resp2 s1' q1' HP HPB HI HN T Hin HB E.
  destruct (C117_order_partial p k p1 p2 rho eps ideal nadir s1 s2 qs HP HPB HI HN T) as (_ & _ & HO). specialize (HO q1 q2 resp1 resp2 Hin HB).
  destruct (rp_iterate p2 rho eps (arranged p ideal) (arranged p nadir) q2 resp2 s2) as [s2' out2] eqn:E2. rewrite E in HO. cbn [snd] in HO.
  destruct out2 as [r2|e]; cbn [same_outcome] in HO; [|contradiction]. subst r2. exists s2'.
  exact (rp_parallel_step p k p1 p2 rho eps ideal nadir s1 s2 qs q1 q2 resp1 resp2 s1' s2' _ _ T Hin HB E E2).
Qed.
Print Assumptions C117_counterpart.

(** The hypothesis on the problems holds for data, and for the documented achievement
    function if the optimizer only sees its values. *)
Definition asf_problem (rho : XR) (solve : (list XR -> res XR) -> list XR -> res (list XR)) (eval : list XR -> list XR) c x0 : rp_problem XR :=
  RMO eval c x0 (fun w nadir utopian q x0 => solve (fun x => rp_asf rho w nadir utopian (eval x) q) x0).
Theorem C117_documented_function :
  forall (p : list nat) k rho solve eval c x0, Permutation p (seq 0 k) ->
  (forall f g x0, (forall x, f x = g x) -> solve f x0 = solve g x0) -> (forall x, length (eval x) = k) ->
  rp_arranged_problem p k (asf_problem rho solve eval c x0) (asf_problem rho solve (fun x => arranged p (eval x)) c x0).
Proof.
  intros p k rho solve eval c x0 HP HS LE. split; [reflexivity|]. split; [auto|]. intros w n u q y Hw Hn Hu Hq. apply HS. intros x. apply (asf_arr p k HP); auto.
Qed.
Print Assumptions C117_documented_function.

(** Two objectives, exchanged; the minimizer finds the reference point itself, worse by 3 in
    the first objective: one round from the reference point (1, 2), then the second
    additional solution is chosen, which is the first one of the other object. *)
Definition x_p : list nat := [1; 0]%nat.
Definition x_ev (x : list XR) : list XR := match x with [a; b] => [a; b] | _ => xv [0; 0]%R end.
Definition x_p1 : rp_problem XR := RMO x_ev None (xv [0; 0]%R) (fun _ _ _ q _ => Ok (match q with [a; b] => [nadd a (Fin 3%R); b] | _ => q end)).
Definition x_p2 : rp_problem XR := RMO (fun x => arranged x_p (x_ev x)) None (xv [0; 0]%R) (fun _ _ _ q _ => Ok (match q with [b; a] => [nadd a (Fin 3%R); b] | _ => q end)).
Definition x_i : list XR := xv [0; 0]%R.
Definition x_n : list XR := xv [5; 6]%R.
Definition x_d1 : rp_dict XR := MkRD (Some (RArr (xv [1; 2]%R))) None None.
Definition x_d1' : rp_dict XR := MkRD (Some (RArr (xv [2; 1]%R))) None None.
Definition x_d2 : rp_dict XR := MkRD None (Some (VBool true)) (Some (VInt 2)).
Definition x_d2' : rp_dict XR := MkRD None (Some (VBool true)) (Some (VInt 1)).
Example C117_hypotheses_met :
  Permutation x_p (seq 0 2) /\ rp_arranged_problem x_p 2 x_p1 x_p2 /\
  exists s1 s2 qs x f, rp_parallel x_p 2 x_p1 x_p2 (Fin 1%R : XR) (Fin 1%R : XR) x_i x_n s1 s2 ((RStop (Some x) (Some f), RStop (Some x) (Some (arranged x_p f))) :: qs) /\
    let c := @nadd XR (Fin 1%R) (Fin 3%R) in
    let d := @vnorm XR [@nsub XR (Fin 1%R) c; @nsub XR (Fin 2%R) (Fin 2%R)] in
    f = [@nadd XR (@nadd XR (Fin 1%R) (@nmul XR d (Fin 0%R))) (Fin 3%R); @nadd XR (Fin 2%R) (@nmul XR d (Fin 1%R))].
Proof.
  assert (HP : Permutation x_p (seq 0 2)) by apply perm_swap.
  assert (HB : rp_arranged_problem x_p 2 x_p1 x_p2).
  { split; [reflexivity|]. split.
    - intros x. split; [|reflexivity]. destruct x as [|a [|b [|]]]; reflexivity.
    - intros w n u q x0 _ _ _ Hq. destruct q as [|a [|b [|]]]; try discriminate. reflexivity. }
  split; [exact HP|]. split; [exact HB|].
  assert (V1 : rp_validate x_i x_n RInit x_d1 = Ok tt).
  { cbn [rp_validate x_d1 rd_ref rp_validate_ref x_i x_n xv map length Nat.eqb negb zipw forallb].
    assert (L : nltb (Fin 5%R : XR) (Fin 1%R) = false) by (apply not_true_is_false; intros H; apply xltb_fin in H; lra). rewrite L. reflexivity. }
  pose proof (rp_parallel_init x_p 2 x_p1 x_p2 (Fin 1%R : XR) (Fin 1%R : XR) x_i x_n) as T0.
  assert (A1 : arranged_answer x_p 2 x_d1 x_d1') by (split; [reflexivity|]; split; [exact (ar_arr x_p 2 (xv [1; 2]%R) eq_refl)|exact Logic.I]).
  assert (A2 : arranged_answer x_p 2 x_d2 x_d2') by (split; [reflexivity|]; split; [exact Logic.I|]; exact (ai_moved x_p 2 (VInt 2) 1 0 eq_refl eq_refl)).
  assert (HI : length x_i = 2%nat) by reflexivity. assert (HN : length x_n = 2%nat) by reflexivity.
  eassert (E1 : rp_iterate x_p1 (Fin 1%R : XR) (Fin 1%R : XR) x_i x_n RInit (Some x_d1) rp_init = (_, Ok _)) by reflexivity.
  destruct (C117_counterpart _ _ _ _ _ _ _ _ _ _ _ RInit RInit (Some x_d1) (Some x_d1') _ _ HP HB HI HN T0 (or_introl eq_refl) (conj A1 V1) E1) as (s2 & T1).
  match type of T1 with rp_parallel _ _ _ _ _ _ _ _ ?s _ ((?q, _) :: _) =>
    assert (V2 : rp_validate x_i x_n q x_d2 = Ok tt) by reflexivity;
    eassert (E2 : rp_iterate x_p1 (Fin 1%R : XR) (Fin 1%R : XR) x_i x_n q (Some x_d2) s = (_, Ok _)) by reflexivity
  end.
  destruct (C117_counterpart _ _ _ _ _ _ _ _ _ _ _ _ _ (Some x_d2) (Some x_d2') _ _ HP HB HI HN T1 (or_introl eq_refl) (conj A2 V2) E2) as (s3 & T2).
  eexists. exists s3. eexists. eexists. eexists. split; [exact T2|]. reflexivity.
Qed.

(** In doubles the order can show in the last bits, since numpy adds in the order of the
    objectives: four objectives, a minimizer that finds [q - c]; the distance of the
    perturbed reference points, a sum of squares, is 1 in one order and 1 + 2^-52 in the
    other, and so is the solution belonging to the objective that comes first, respectively
    last. *)
Definition r_c : list F64 := [1; 0x1p-26; 0x1.4p-27; 0x1.4p-27]%float.
Definition r_c' : list F64 := [0x1.4p-27; 0x1.4p-27; 0x1p-26; 1]%float.
Definition r_zero : list F64 := [0; 0; 0; 0]%float.
Definition r_i : list F64 := [-5; -5; -5; -5]%float.
Definition r_n : list F64 := [5; 5; 5; 5]%float.
Definition r_ev (x : list F64) : list F64 := x.
Definition r_p1 : rp_problem F64 := RMO r_ev None r_zero (fun _ _ _ q _ => Ok (vsub q r_c)).
Definition r_p2 : rp_problem F64 := RMO r_ev None r_zero (fun _ _ _ q _ => Ok (vsub q r_c')).
Definition r_d : rp_dict F64 := MkRD (Some (RArr r_zero)) None None.
Definition r_rho : F64 := 0x1p-13%float.
Definition r_eps : F64 := 0x1p-20%float.
Definition r_out (p : rp_problem F64) := snd (rp_iterate p r_rho r_eps r_i r_n RInit (Some r_d) rp_init).
Definition r_fs (r : res (rp_request F64)) : list (list F64) := match r with Ok (RReq _ fs) => fs | _ => [] end.
Definition r_f (r : res (rp_request F64)) : list F64 := match r with Ok (RReq f _) => f | _ => [] end.
Definition r_fs1 : list (list F64) := r_fs (r_out r_p1).
Definition r_fs2 : list (list F64) := r_fs (r_out r_p2).
Definition r_f1 : list F64 := r_f (r_out r_p1).
Definition r_f2 : list F64 := r_f (r_out r_p2).
Definition r_q1 : rp_request F64 := RReq r_f1 r_fs1.
Definition r_q2 : rp_request F64 := RReq r_f2 r_fs2.
Definition r_l0 : option F64 := Some 0%float.
Definition r_l1 : option F64 := Some 0x1p-52%float.
Theorem C117_rounding_refuted :
  rev r_c = r_c' /\ rp_validate r_i r_n RInit r_d = Ok tt /\
  snd (rp_iterate r_p1 r_rho r_eps r_i r_n RInit (Some r_d) rp_init) = Ok (RReq r_f1 r_fs1) /\
  snd (rp_iterate r_p2 r_rho r_eps r_i r_n RInit (Some r_d) rp_init) = Ok (RReq r_f2 r_fs2) /\
  nth_error (nth 0 r_fs1 []) 0 = Some 0%float /\ nth_error (nth 3 r_fs2 []) 3 = Some 0x1p-52%float.
Proof.
  split; [vm_cast_no_check (eq_refl r_c')|]. split; [vm_cast_no_check (eq_refl (Ok tt))|].
  split; [vm_cast_no_check (eq_refl (Ok r_q1))|]. split; [vm_cast_no_check (eq_refl (Ok r_q2))|].
  split; [vm_cast_no_check (eq_refl r_l0)|vm_cast_no_check (eq_refl r_l1)].
Qed.
Print Assumptions C117_rounding_refuted.
