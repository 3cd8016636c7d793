(** * C115: synchronous NIMBUS, constants added to the objectives. *)
From Coq Require Import ZArith Reals Lra List Bool Lia Floats.
From Verif Require Import Num NumXR NumF64 Py Np Spec NpFacts XRFacts SNavShift PNavShift MNimbus MNimbusAsf SNimbus SNimbusShift PNautShift PNimbusShift PNimbusShift2.
Import ListNotations.

(** Two objects whose objectives, ideal, nadir and starting point differ by the constants
    [t], any history in which corresponding requests get the corresponding answers (levels
    moved by [t]) that classify every objective and imply no level that divides by zero:
    every vector of objective values shown differs by [t]; decision vectors, accepted
    answers, phases and exceptions are the same. *)
Theorem C115_constants_partial :
  forall (t : list R) delta ideal nadir (av : @asf_val XR) (p1 p2 : nb_problem XR) start x0 s1 s2 qs,
  proper_data t delta ideal nadir -> changes_by_a_constant t delta ideal nadir av -> moved_nb_problem t delta ideal nadir p1 p2 ->
  (forall v, start = Some v -> length v = length t) ->
  nb_shifted t delta ideal nadir av p1 p2 start x0 s1 s2 qs ->
  (forall q1 q2, In (q1, q2) qs -> q2 = moved_nb t q1) /\
  (forall q1 q2 d, In (q1, q2) qs ->
     nb_validate p2 (moved t (xv ideal)) (moved t (xv nadir)) q2 (moved_classes t d) = nb_validate p1 (xv ideal) (xv nadir) q1 d) /\
  (forall q1 q2 resp, In (q1, q2) qs ->
     (forall d, resp = Some d -> nb_validate p1 (xv ideal) (xv nadir) q1 d = Ok tt /\ regular_answer t delta ideal nadir (bs_obj s1) d) ->
     snd (nb_iterate av p2 (moved t (xv ideal)) (moved t (xv nadir)) q2 (option_map (moved_classes t) resp) s2) =
     rmap (moved_nb t) (snd (nb_iterate av p1 (xv ideal) (xv nadir) q1 resp s1))).
Proof.
  intros t delta ideal nadir av p1 p2 start x0 s1 s2 qs HD HC MP HS T.
  pose proof (shifted_inv t delta ideal nadir av p1 p2 HD HC MP start x0 s1 s2 qs HS T) as (-> & W & HQ). rewrite Forall_forall in HQ. split; [|split].
  - intros q1 q2 Hin. exact (proj1 (HQ _ Hin)).
  - intros q1 q2 d Hin. destruct (HQ _ Hin) as [E _]. cbn [fst snd] in E. rewrite E. destruct HD as (LI & LN & _). exact (validate_moved t delta ideal nadir p1 p2 q1 d LI LN MP).
  - intros q1 q2 resp Hin HV. destruct (HQ _ Hin) as [E WQ]. cbn [fst snd] in E, WQ. rewrite E.
    pose proof (iterate_moved t delta ideal nadir av p1 p2 HD HC MP q1 resp s1 W WQ HV) as (_ & _ & R).
    destruct (snd (nb_iterate av p1 (xv ideal) (xv nadir) q1 resp s1)) as [a|e], (snd (nb_iterate av p2 (moved t (xv ideal)) (moved t (xv nadir)) (moved_nb t q1) (option_map (moved_classes t) resp) (ms t s1))) as [b|e'];
      cbn [rr] in R; try contradiction; cbn [rmap]; [destruct R as [-> _]; reflexivity|congruence].
Qed.
Print Assumptions C115_constants_partial.

(** The constructor and start: the same exception, or the first requests differ by [t]. *)
Theorem C115_start :
  forall (t : list R) delta ideal nadir (av : @asf_val XR) (p1 p2 : nb_problem XR) start x0,
  proper_data t delta ideal nadir -> changes_by_a_constant t delta ideal nadir av -> moved_nb_problem t delta ideal nadir p1 p2 ->
  (forall v, start = Some v -> length v = length t) ->
  rmap nb_start (nb_init av p2 (moved t (xv ideal)) (moved t (xv nadir)) (option_map (moved t) start) x0) =
  rmap (fun s => moved_nb t (nb_start s)) (nb_init av p1 (xv ideal) (xv nadir) start x0).
Proof.
  intros t delta ideal nadir av p1 p2 start x0 HD HC MP HS.
  pose proof (init_moved t delta ideal nadir av p1 p2 HD HC MP start x0 HS) as R.
  destruct (nb_init av p1 (xv ideal) (xv nadir) start x0) as [a|e], (nb_init av p2 (moved t (xv ideal)) (moved t (xv nadir)) (option_map (moved t) start) x0) as [b|e'];
    cbn [rr] in R; try contradiction; cbn [rmap]; [destruct R as [-> _]; reflexivity|congruence].
Qed.
Print Assumptions C115_start.

(** The hypotheses on the achievement functions and on the minimizer hold for the
    documented functions, if the optimizer finds the same point when a constant is added
    to what it minimizes. *)
Theorem C115_documented_functions :
  forall (t : list R) delta rho ideal nadir, proper_data t delta ideal nadir ->
  changes_by_a_constant t delta ideal nadir (nb_asf_doc (Fin delta : XR) (Fin rho : XR)) /\
  forall solve ev co, nb_ignores_a_constant solve -> (forall x, length (ev x) = length t) ->
    let av := nb_asf_doc (Fin delta : XR) (Fin rho : XR) in
    moved_nb_problem t delta ideal nadir (PMO (length t) ev co (nb_solved_by av solve ev))
      (PMO (length t) (fun x => moved t (ev x)) co (nb_solved_by av solve (fun x => moved t (ev x)))).
Proof.
  intros t delta rho ideal nadir HD. assert (HC : changes_by_a_constant t delta ideal nadir (nb_asf_doc (Fin delta : XR) (Fin rho : XR))) by (apply doc_changes; exact HD).
  split; [exact HC|]. intros solve ev co HI HL av. cbn [moved_nb_problem]. repeat split; auto.
  intros a z c1 c2 x0 HR HSC. destruct (HC a z HR) as [c Hc]. unfold nb_solved_by. apply (HI c); [|exact HSC]. intros x. apply Hc. apply HL.
Qed.
Print Assumptions C115_documented_functions.

(** Refuted without the hypothesis that every objective is classified: data (0,4), (3,0),
    (1,2), ideal (0,0), nadir (4,4), starting at (0,4), the classification ["<"] (no second
    entry, accepted), two solutions: the second one is (1,2).  With 4 subtracted from the
    second objective and its level it is the first row: the level implied for an objective
    without a class is 0, whatever its range. *)
Definition b_rho : F64 := 0x1.a36e2eb1c432dp-14%float. (* 0.0001 *)
Definition b_delta : F64 := 0x1.0c6f7a0b5ed8dp-20%float. (* 1e-6 *)
Definition b_av : @asf_val F64 := nb_asf_doc b_delta b_rho.
Definition b_pt (a b : float) : list F64 := [a; b].
Definition b_x (a : float) : list F64 := [a].
Definition bD : list (list F64) := [[10]; [20]; [30]]%float.
Definition bP0 : nb_problem F64 := PDisc 2 [b_pt 0 4; b_pt 3 0; b_pt 1 2] bD (fun _ => 0%nat).
Definition bP4 : nb_problem F64 := PDisc 2 [b_pt 0 0; b_pt 3 (-4); b_pt 1 (-2)] bD (fun _ => 0%nat).
Definition bP1 : nb_problem F64 := PDisc 2 [b_pt 0 5; b_pt 3 1; b_pt 1 3] bD (fun _ => 0%nat).
Definition b_first (f : list F64) : nb_state F64 := MkBS ([10%float] : list F64) f [] [] PClassify.
Definition b_answer (cl : list cls) (lv : list F64) (n : Z) : nb_dict F64 := MkBD (Some cl) (Some lv) (Some (VInt n)) None None None None.
Theorem C115_unclassified_refuted :
  let d := b_answer [CImprove] (b_pt 0 4) 2 in
  let d' := b_answer [CImprove] (b_pt 0 0) 2 in
  nb_init b_av bP0 (b_pt 0 0) (b_pt 4 4) (Some (b_pt 0 4)) [] = Ok (b_first (b_pt 0 4)) /\
  nb_init b_av bP4 (b_pt 0 (-4)) (b_pt 4 0) (Some (b_pt 0 0)) [] = Ok (b_first (b_pt 0 0)) /\
  nb_validate bP0 (b_pt 0 0) (b_pt 4 4) (QClass (b_pt 0 4)) d = Ok tt /\ nb_validate bP4 (b_pt 0 (-4)) (b_pt 4 0) (QClass (b_pt 0 0)) d' = Ok tt /\
  (exists s, nb_iterate b_av bP0 (b_pt 0 0) (b_pt 4 4) (QClass (b_pt 0 4)) (Some d) (b_first (b_pt 0 4)) =
     (s, Ok (QSave [b_x 10; b_x 30] [b_pt 0 4; b_pt 1 2]))) /\
  (exists s, nb_iterate b_av bP4 (b_pt 0 (-4)) (b_pt 4 0) (QClass (b_pt 0 0)) (Some d') (b_first (b_pt 0 0)) =
     (s, Ok (QSave [b_x 10; b_x 10] [b_pt 0 0; b_pt 0 0]))).
Proof.
  intros d d'. split; [vm_cast_no_check (eq_refl (Ok (b_first (b_pt 0 4))))|]. split; [vm_cast_no_check (eq_refl (Ok (b_first (b_pt 0 0))))|].
  split; [vm_cast_no_check (eq_refl (Ok tt : res unit))|]. split; [vm_cast_no_check (eq_refl (Ok tt : res unit))|].
  split.
  - exists (fst (nb_iterate b_av bP0 (b_pt 0 0) (b_pt 4 4) (QClass (b_pt 0 4)) (Some d) (b_first (b_pt 0 4)))).
    vm_cast_no_check (eq_refl (fst (nb_iterate b_av bP0 (b_pt 0 0) (b_pt 4 4) (QClass (b_pt 0 4)) (Some d) (b_first (b_pt 0 4))), Ok (QSave [b_x 10; b_x 30] [b_pt 0 4; b_pt 1 2]))).
  - exists (fst (nb_iterate b_av bP4 (b_pt 0 (-4)) (b_pt 4 0) (QClass (b_pt 0 0)) (Some d') (b_first (b_pt 0 0)))).
    vm_cast_no_check (eq_refl (fst (nb_iterate b_av bP4 (b_pt 0 (-4)) (b_pt 4 0) (QClass (b_pt 0 0)) (Some d') (b_first (b_pt 0 0))), Ok (QSave [b_x 10; b_x 10] [b_pt 0 0; b_pt 0 0]))).
Qed.
Print Assumptions C115_unclassified_refuted.

(** Refuted without the hypothesis on the implied levels: the same data, all objectives
    classified ["<", "="] at (0,4), where the second objective has its nadir value, four
    solutions: the last one (GUESS) is (1,2).  With 1 added to the second objective it is
    (3,1), the counterpart of (3,0): GUESS divides objective values by the distance from the
    accepted value to the nadir, which is 0. *)
Theorem C115_accepted_nadir_refuted :
  let d := b_answer [CImprove; CAccept] (b_pt 0 4) 4 in
  let d' := b_answer [CImprove; CAccept] (b_pt 0 5) 4 in
  nb_init b_av bP0 (b_pt 0 0) (b_pt 4 4) (Some (b_pt 0 4)) [] = Ok (b_first (b_pt 0 4)) /\
  nb_init b_av bP1 (b_pt 0 1) (b_pt 4 5) (Some (b_pt 0 5)) [] = Ok (b_first (b_pt 0 5)) /\
  nb_validate bP0 (b_pt 0 0) (b_pt 4 4) (QClass (b_pt 0 4)) d = Ok tt /\ nb_validate bP1 (b_pt 0 1) (b_pt 4 5) (QClass (b_pt 0 5)) d' = Ok tt /\
  (exists s, nb_iterate b_av bP0 (b_pt 0 0) (b_pt 4 4) (QClass (b_pt 0 4)) (Some d) (b_first (b_pt 0 4)) =
     (s, Ok (QSave [b_x 10; b_x 10; b_x 10; b_x 30] [b_pt 0 4; b_pt 0 4; b_pt 0 4; b_pt 1 2]))) /\
  (exists s, nb_iterate b_av bP1 (b_pt 0 1) (b_pt 4 5) (QClass (b_pt 0 5)) (Some d') (b_first (b_pt 0 5)) =
     (s, Ok (QSave [b_x 10; b_x 10; b_x 10; b_x 20] [b_pt 0 5; b_pt 0 5; b_pt 0 5; b_pt 3 1]))).
Proof.
  intros d d'. split; [vm_cast_no_check (eq_refl (Ok (b_first (b_pt 0 4))))|]. split; [vm_cast_no_check (eq_refl (Ok (b_first (b_pt 0 5))))|].
  split; [vm_cast_no_check (eq_refl (Ok tt : res unit))|]. split; [vm_cast_no_check (eq_refl (Ok tt : res unit))|].
  split.
  - exists (fst (nb_iterate b_av bP0 (b_pt 0 0) (b_pt 4 4) (QClass (b_pt 0 4)) (Some d) (b_first (b_pt 0 4)))).
    vm_cast_no_check (eq_refl (fst (nb_iterate b_av bP0 (b_pt 0 0) (b_pt 4 4) (QClass (b_pt 0 4)) (Some d) (b_first (b_pt 0 4))), Ok (QSave [b_x 10; b_x 10; b_x 10; b_x 30] [b_pt 0 4; b_pt 0 4; b_pt 0 4; b_pt 1 2]))).
  - exists (fst (nb_iterate b_av bP1 (b_pt 0 1) (b_pt 4 5) (QClass (b_pt 0 5)) (Some d') (b_first (b_pt 0 5)))).
    vm_cast_no_check (eq_refl (fst (nb_iterate b_av bP1 (b_pt 0 1) (b_pt 4 5) (QClass (b_pt 0 5)) (Some d') (b_first (b_pt 0 5))), Ok (QSave [b_x 10; b_x 10; b_x 10; b_x 20] [b_pt 0 5; b_pt 0 5; b_pt 0 5; b_pt 3 1]))).
Qed.
Print Assumptions C115_accepted_nadir_refuted.

(** A problem with two objectives and an optimizer that compares two candidates. *)
Definition b_c0 : list XR := xv [0%R].
Definition b_c1 : list XR := xv [1%R].
Definition b_solve : nb_solver := fun f _ _ =>
  match f b_c0, f b_c1 with Ok a, Ok b => if nleb b a then Ok (b_c1, true) else Ok (b_c0, true) | _, _ => Ok (b_c0, true) end.
Definition b_eval (x : list XR) : list XR := let a := hd (Fin 0 : XR) x in [a; nsub (Fin 1 : XR) a].
Definition b_t : list R := [5; -7]%R.
Definition b_doc : @asf_val XR := nb_asf_doc (Fin 1 : XR) (Fin 1 : XR).
Definition bX1 : nb_problem XR := PMO 2 b_eval None (nb_solved_by b_doc b_solve b_eval).
Definition bX2 : nb_problem XR := PMO 2 (fun x => moved b_t (b_eval x)) None (nb_solved_by b_doc b_solve (fun x => moved b_t (b_eval x))).
Definition b_cls : nb_dict XR := MkBD (Some [CImprove; CFree]) (Some (xv [0; 0]%R)) (Some (VInt 4)) None None None None.
Lemma b_total f h x0 : exists c, b_solve f h x0 = Ok (c, true).
Proof. unfold b_solve. destruct (f b_c0) as [a|]; [|eauto]. destruct (f b_c1) as [b|]; [|eauto]. destruct (nleb b a); eauto. Qed.
Lemma b_ignores : nb_ignores_a_constant b_solve.
Proof.
  intros c f g h h' x0 H1 H2. unfold b_solve. rewrite !H1. destruct (f b_c0) as [a|]; [|reflexivity]. destruct (f b_c1) as [b|]; [|reflexivity].
  cbn [rmap]. rewrite up_leb. reflexivity.
Qed.
Lemma b_proper : proper_data b_t 1 [0; 0]%R [1; 1]%R.
Proof. split; [reflexivity|]. split; [reflexivity|]. intros [|[|[|i]]] a b Ha Hb; cbn in Ha, Hb; try discriminate; injection Ha as <-; injection Hb as <-; lra. Qed.

Lemma b_nbsolve x a z c cd : exists r, nb_solve b_doc bX1 x a z c cd = Ok r.
Proof. unfold nb_solve, bX1, nb_solved_by. edestruct b_total as [r E]. rewrite E. cbn [rbind]. eauto. Qed.
Lemma b_zbar cur : exists z, nb_zbar 2 (xv [0; 0]%R) (xv [1; 1]%R : list XR) cur (xv [0; 0]%R) [0%nat] [] [] [] [1%nat] = Ok z.
Proof. eexists. reflexivity. Qed.
Lemma b_handle s : exists sols objs, nb_handle_cls b_doc bX1 (xv [0; 0]%R) (xv [1; 1]%R) s b_cls = Ok (QSave sols objs) /\ length sols = 4%nat.
Proof.
  unfold nb_handle_cls. cbn [b_cls bd_cls bd_levels bd_nsol key rbind py_toint].
  change (where_cls CImprove [CImprove; CFree]) with [0%nat]. change (where_cls CFree [CImprove; CFree]) with [1%nat].
  change (where_cls CImproveUntil [CImprove; CFree]) with (@nil nat). change (where_cls CAccept [CImprove; CFree]) with (@nil nat). change (where_cls CImpairUntil [CImprove; CFree]) with (@nil nat).
  unfold nb_new_solutions. change (p_nobj bX1) with 2%nat. change (1 <? 4)%Z with true. change (2 <? 4)%Z with true. change (3 <? 4)%Z with true. cbv iota.
  edestruct b_nbsolve as [r1 E1]. rewrite E1. cbn [rbind]. destruct (b_zbar (bs_obj s)) as [z Ez]. rewrite Ez. cbn [rbind].
  edestruct b_nbsolve as [r2 E2]. rewrite E2. cbn [rbind]. edestruct b_nbsolve as [r3 E3]. rewrite E3. cbn [rbind].
  edestruct b_nbsolve as [r4 E4]. rewrite E4. cbn [rbind]. eexists. eexists. split; reflexivity.
Qed.

Example C115_hypotheses_met :
  exists s1 s2 q1 q2 q1' q2',
  proper_data b_t 1 [0; 0]%R [1; 1]%R /\ changes_by_a_constant b_t 1 [0; 0]%R [1; 1]%R b_doc /\ moved_nb_problem b_t 1 [0; 0]%R [1; 1]%R bX1 bX2 /\
  nb_shifted b_t 1 [0; 0]%R [1; 1]%R b_doc bX1 bX2 None [] s1 s2 [(q1', q2'); (q1, q2)] /\
  (exists sols objs, q1' = QSave sols objs /\ length sols = 4%nat).
Proof.
  destruct (C115_documented_functions b_t 1 1 [0; 0]%R [1; 1]%R b_proper) as [HC HM].
  assert (MP : moved_nb_problem b_t 1 [0; 0]%R [1; 1]%R bX1 bX2) by (apply HM; [exact b_ignores|reflexivity]).
  assert (I1 : exists s1, nb_init b_doc bX1 (xv [0; 0]%R) (xv [1; 1]%R) None [] = Ok s1 /\ bs_phase s1 = PClassify).
  { unfold nb_init, bX1, nb_solved_by. cbn [nb_start_ok negb]. edestruct b_total as [c E]. rewrite E. cbn. eauto. }
  destruct I1 as (s1 & E1 & P1).
  pose proof (C115_start b_t 1 [0; 0]%R [1; 1]%R b_doc bX1 bX2 None [] b_proper HC MP ltac:(discriminate)) as ES. rewrite E1 in ES. cbn [rmap] in ES.
  destruct (nb_init b_doc bX2 (moved b_t (xv [0; 0]%R)) (moved b_t (xv [1; 1]%R)) (option_map (moved b_t) None) []) as [s2|] eqn:E2; [|discriminate].
  pose proof (nb_shifted_init b_t 1 [0; 0]%R [1; 1]%R b_doc bX1 bX2 None [] s1 s2 E1 E2) as T0.
  assert (HV : forall d, Some b_cls = Some d -> nb_validate bX1 (xv [0; 0]%R) (xv [1; 1]%R) (nb_start s1) d = Ok tt /\ regular_answer b_t 1 [0; 0]%R [1; 1]%R (bs_obj s1) d).
  { intros d [= <-]. split; [reflexivity|]. intros cl lv [= <-] [= <-]. split; [reflexivity|].
    intros [|[|[|j]]] c x y Hc Hx Hy; cbn in Hc, Hx, Hy; try discriminate; injection Hc as <-; injection Hx as <-; injection Hy as <-; cbn.
    - exists 0%R. repeat split; intros; lra.
    - exists 1%R. split; [reflexivity|]. split; [lra|]. intros H. contradiction. }
  assert (I2 : exists s1' sols objs, nb_iterate b_doc bX1 (xv [0; 0]%R) (xv [1; 1]%R) (nb_start s1) (Some b_cls) s1 = (s1', Ok (QSave sols objs)) /\ length sols = 4%nat).
  { destruct (b_handle s1) as (sols & objs & E & HL). unfold nb_iterate, sbind, sget. rewrite P1. cbn [nb_start nb_request_cls resp_ lift]. unfold lift. rewrite E.
    eexists. exists sols, objs. split; [reflexivity|exact HL]. }
  destruct I2 as (s1' & sols & objs & E3 & HL).
  pose proof (C115_constants_partial b_t 1 [0; 0]%R [1; 1]%R b_doc bX1 bX2 None [] s1 s2 _ b_proper HC MP ltac:(discriminate) T0) as (_ & _ & HO).
  specialize (HO _ _ (Some b_cls) (or_introl eq_refl) HV). rewrite E3 in HO. cbn [snd rmap moved_nb] in HO.
  destruct (nb_iterate b_doc bX2 (moved b_t (xv [0; 0]%R)) (moved b_t (xv [1; 1]%R)) (nb_start s2) (option_map (moved_classes b_t) (Some b_cls)) s2) as [s2' out2] eqn:E4.
  cbn [snd] in HO. subst out2.
  exists s1', s2', (nb_start s1), (nb_start s2), (QSave sols objs), (QSave sols (moved_rows b_t objs)).
  split; [exact b_proper|]. split; [exact HC|]. split; [exact MP|]. split; [|eauto].
  exact (nb_shifted_step b_t 1 [0; 0]%R [1; 1]%R b_doc bX1 bX2 None [] s1 s2 _ _ _ (Some b_cls) s1' _ s2' _ T0 (or_introl eq_refl) HV E3 E4).
Qed.
