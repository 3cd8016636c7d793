(** * Synchronous NIMBUS: the archive is only listed (C110).
    [nb_play_p ... tr q ds s]: the requests (or exceptions) returned for the answers
    [ds], each given, as translated by [tr], to the last request; the first to [q]. *)
From Coq Require Import ZArith String List Bool Lia Floats.
From Verif Require Import Num NumF64 F64Facts Py Np Spec NpFacts MNimbus SNimbus PNimbus PNimbus2 PNimbus4 PNimbus7 PNimbus8 MNimbusPlot SNimbusPlot PNimbusPlot PropsNimbusPlot SNimbus4 PNimbus14 PNimbus15.
Import ListNotations.

(** ** C110: what was saved earlier is listed before the other solutions and is
    otherwise without effect.  From any classification request of any session, the
    session goes on like one with the same current solution and an empty archive:
    the same requests with the archive listed first, for answers with the indices
    counted accordingly -- unless that other session lists no solution at all. *)
Theorem C110_fresh_session_partial :
  forall (N : NumOps) (av : @asf_val N) p names mult ideal nadir start x0 s0 s qs ds,
  plot_wf p names mult ideal nadir -> nb_init av p ideal nadir start x0 = Ok s0 ->
  nb_reach_p av p names mult ideal nadir s0 s qs ->
  let fresh := nb_play_p av p names mult ideal nadir as_given (nb_request_cls s) ds (emptied s) in
  ~ In (Ok (QInter [] [])) fresh ->
  nb_play_p av p names mult ideal nadir (further_in (length (bs_aobjs s))) (nb_request_cls s) ds s =
    map (rmap (listing_first (bs_asols s) (bs_aobjs s))) fresh.
Proof. intros N av p names mult ideal nadir start x0 s0 s qs ds HW H0 HR. exact (play_p_same av p names mult ideal nadir HW start x0 s0 s qs ds H0 HR). Qed.
Print Assumptions C110_fresh_session_partial.

(** Apart from the making of the plots (C91) there is no exception. *)
Theorem C110_without_plots :
  forall (N : NumOps) (av : @asf_val N) p ideal nadir start x0 s0 s qs ds,
  nb_init av p ideal nadir start x0 = Ok s0 -> nb_reach av p ideal nadir s0 s qs ->
  nb_play av p ideal nadir (further_in (length (bs_aobjs s))) (nb_request_cls s) ds s =
    map (rmap (listing_first (bs_asols s) (bs_aobjs s))) (nb_play av p ideal nadir as_given (nb_request_cls s) ds (emptied s)).
Proof. intros N av p ideal nadir start x0 s0 s qs ds H0 HR. exact (play_plain_same av p ideal nadir start x0 s0 s qs ds H0 HR). Qed.
Print Assumptions C110_without_plots.

(** Two sessions of the same problem (not necessarily of the same object: their
    starting points may differ) that wait for a classification of the same current
    solution go on alike. *)
Definition same_current {N : NumOps} (p : nb_problem N) (s1 s2 : nb_state N) : Prop :=
  bs_phase s1 = bs_phase s2 /\ bs_obj s1 = bs_obj s2 /\
  match p with PMO _ _ _ _ => bs_sol s1 = bs_sol s2 | PDisc _ _ _ _ => True end.
Theorem C110_same_current :
  forall (N : NumOps) (av : @asf_val N) p ideal nadir start1 x01 s01 s1 qs1 start2 x02 s02 s2 qs2 ds,
  nb_init av p ideal nadir start1 x01 = Ok s01 -> nb_reach av p ideal nadir s01 s1 qs1 ->
  nb_init av p ideal nadir start2 x02 = Ok s02 -> nb_reach av p ideal nadir s02 s2 qs2 ->
  same_current p s1 s2 ->
  exists replies,
  nb_play av p ideal nadir (further_in (length (bs_aobjs s1))) (nb_request_cls s1) ds s1 = map (rmap (listing_first (bs_asols s1) (bs_aobjs s1))) replies /\
  nb_play av p ideal nadir (further_in (length (bs_aobjs s2))) (nb_request_cls s2) ds s2 = map (rmap (listing_first (bs_asols s2) (bs_aobjs s2))) replies.
Proof.
  intros N av p ideal nadir st1 x01 s01 s1 qs1 st2 x02 s02 s2 qs2 ds I1 R1 I2 R2 (Ep & Ef & Es).
  exists (nb_play av p ideal nadir as_given (nb_request_cls s1) ds (emptied s1)). split; [exact (play_plain_same av p ideal nadir st1 x01 s01 s1 qs1 ds I1 R1)|].
  refine (eq_trans (play_plain_same av p ideal nadir _ _ _ s2 _ ds I2 R2) _). f_equal. unfold nb_request_cls. rewrite <- Ef.
  destruct p as [k ev con mi|k objs decs clo].
  - f_equal. unfold emptied. congruence.
  - symmetry. apply play_but_sol. exists (bs_sol s2). unfold emptied. cbn. congruence.
Qed.
Print Assumptions C110_same_current.

(** The session of PNimbus8: two solutions have been saved, the current solution is
    one of them and a classification is asked for; the other session never lists an
    empty list, and its requests differ from those of the first. *)
Definition n_ans : list (nb_dict F64) := [b_classify; dsave [1]%Z; dinter [0; 2]%Z 2; dsave [0; 1]%Z; dinter [] 0; dpref 2 true].
Definition n_runp := match demo_p bav bP bnames [] bI bN None [] (b_ds 6) with Some r => r | None => (MkBS [] [] [] [] PEnd, QClass [], []) end.
Definition n_state : nb_state F64 := fst (fst n_runp).
Lemma n_runp_ok : demo_p bav bP bnames [] bI bN None [] (b_ds 6) = Some n_runp.
Proof. apply some_get. vm_compute. reflexivity. Qed.
Definition req_sizes (r : res (nb_request F64)) : nat * nat :=
  match r with
  | Ok (QClass _) => (1, 0) | Ok (QSave a _) => (2, length a) | Ok (QInter a _) => (3, length a) | Ok (QPref a _) => (4, length a) | Ok (QStop _ _) => (5, 1)
  | Raise _ => (0, 0)
  end.
Lemma sizes_no_empty l : forallb (fun r => negb (match req_sizes r with (3, 0) => true | _ => false end)) l = true -> ~ In (Ok (QInter [] [])) l.
Proof. intros H G. rewrite forallb_forall in H. specialize (H _ G). discriminate. Qed.
Example C110_hypotheses_met :
  plot_wf bP bnames [] bI bN /\
  (exists s0 qs, nb_init bav bP bI bN None [] = Ok s0 /\ nb_reach_p bav bP bnames [] bI bN s0 n_state qs) /\
  bs_phase n_state = PClassify /\ length (bs_aobjs n_state) = 2 /\
  ~ In (Ok (QInter [] [])) (nb_play_p bav bP bnames [] bI bN as_given (nb_request_cls n_state) n_ans (emptied n_state)) /\
  map req_sizes (nb_play_p bav bP bnames [] bI bN as_given (nb_request_cls n_state) n_ans (emptied n_state)) = [(2, 4); (3, 4); (2, 2); (3, 3); (4, 3); (1, 0)] /\
  map req_sizes (nb_play_p bav bP bnames [] bI bN (further_in 2) (nb_request_cls n_state) n_ans n_state) = [(2, 4); (3, 6); (2, 2); (3, 5); (4, 5); (1, 0)].
Proof.
  split; [exact bP_plot_wf|]. split.
  { destruct (demo_p_reach bav bP bnames [] bI bN None [] (b_ds 6) n_runp n_runp_ok) as (s0 & A & B & _). exists s0. eexists. split; [exact A|exact B]. }
  split; [vm_compute; reflexivity|]. split; [vm_compute; reflexivity|]. split; [apply sizes_no_empty; vm_compute; reflexivity|].
  split; vm_compute; reflexivity.
Qed.
(** A new session and the same session six answers later: the same current solution,
    different archives. *)
Definition b_init : nb_state F64 := match nb_init bav bP bI bN None [] with Ok s => s | Raise _ => MkBS [] [] [] [] PEnd end.
Example C110_same_current_met :
  nb_init bav bP bI bN None [] = Ok b_init /\
  nb_reach bav bP bI bN b_init b_init [nb_request_cls b_init] /\ nb_reach bav bP bI bN b_init (b_state 6) (b_reqs 6) /\
  same_current bP b_init (b_state 6) /\ length (bs_aobjs b_init) = 0 /\ length (bs_aobjs (b_state 6)) = 2.
Proof.
  assert (E : nb_init bav bP bI bN None [] = Ok b_init) by (vm_cast_no_check (eq_refl (nb_init bav bP bI bN None []))).
  split; [exact E|]. split; [constructor|]. split; [destruct (b_reach 6 (le_n 6)) as (s0 & A & B & _); rewrite E in A; injection A as A; rewrite A; exact B|].
  split; [|split; vm_compute; reflexivity]. split; [vm_compute; reflexivity|]. split; [|exact I]. vm_cast_no_check (eq_refl (bs_obj b_init)).
Qed.

(** The exception: the session with the empty archive lists nothing and then fails,
    in making a plot, where the other session goes on. *)
Theorem C110_empty_list_refuted :
  exists s0 s qs ds, nb_init bav bP bI bN None [] = Ok s0 /\ nb_reach_p bav bP bnames [] bI bN s0 s qs /\ bs_phase s = PClassify /\
  ~ (nb_play_p bav bP bnames [] bI bN (further_in (length (bs_aobjs s))) (nb_request_cls s) ds s =
     map (rmap (listing_first (bs_asols s) (bs_aobjs s))) (nb_play_p bav bP bnames [] bI bN as_given (nb_request_cls s) ds (emptied s))).
Proof.
  destruct (demo_p_reach bav bP bnames [] bI bN None [] (b_ds 6) n_runp n_runp_ok) as (s0 & A & B & _).
  exists s0, n_state. eexists. exists (h_ans ++ [dinter [] 0]). split; [exact A|]. split; [exact B|]. split; [vm_compute; reflexivity|].
  intros E. apply (f_equal (map req_sizes)) in E. 
  assert (K : forall a b : list (nat * nat), a = b -> forallb (fun t => Nat.eqb (fst (nth t a (0, 0))) (fst (nth t b (0, 0)))) (seq 0 5) = true).
  { intros a b ->. apply forallb_forall. intros t _. apply Nat.eqb_refl. }
  apply K in E. revert E. vm_compute. discriminate.
Qed.
Print Assumptions C110_empty_list_refuted.
