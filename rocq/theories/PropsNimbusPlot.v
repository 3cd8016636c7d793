(** * Properties of the plot requests of synchronous NIMBUS (C91).
    [nb_reach_p av p names mult ideal nadir s0 s qs]: after construction ([s0]) and
    some history the method object is in state [s] and has returned the pairs of a
    request and its plot request (if any) in [qs]; any request returned may be
    iterated at any time, unanswered or with any response its validator accepts;
    failing calls are part of the history. *)
From Coq Require Import ZArith String List Bool Lia Floats.
From Verif Require Import Num NumF64 F64Facts Py Np Spec NpFacts MNimbus SNimbus PNimbus PNimbus2 PNimbus4 PNimbus7 PNimbus8 MNimbusPlot SNimbusPlot PNimbusPlot.
Import ListNotations.

(** ** C91: a plot shows exactly the objective vectors of its request, between the
    problem's ideal and nadir; classification requests have none, and a finished
    session returns the request it is given without a plot *)
Theorem C91_plots :
  forall (N : NumOps) (av : @asf_val N) p names mult ideal nadir start x0 s0 s qs q pl resp s' q' pl',
  plot_wf p names mult ideal nadir -> nb_init av p ideal nadir start x0 = Ok s0 ->
  nb_reach_p av p names mult ideal nadir s0 s qs -> In (q, pl) qs ->
  (forall d, resp = Some d -> nb_validate p ideal nadir q d = Ok tt) ->
  nb_iterate_p av p names mult ideal nadir q resp s = (s', Ok (q', pl')) ->
  (bs_phase s = PEnd -> q' = q /\ pl' = None) /\
  (bs_phase s <> PEnd ->
     match q' with
     | QClass _ => pl' = None
     | _ => pl' = Some (MkPlot names (shown_minimize p names mult) ideal nadir (shown_objectives q'))
     end).
Proof.
  intros N av p names mult ideal nadir start x0 s0 s qs q pl resp s' q' pl' HW H0 HR Hin HV H.
  destruct (nb_iterate av p ideal nadir q resp s) as [s1 out] eqn:E.
  rewrite (step_full av p names mult ideal nadir HW start x0 s0 s qs q pl resp s1 out H0 HR Hin HV E) in H.
  destruct out as [q1|e]; [|discriminate]. destruct (unplottable (bs_phase s) q1); [discriminate|]. injection H as <- <- <-.
  split.
  - intros Ep. rewrite iter_end in E by exact Ep. injection E as _ <-. rewrite Ep. destruct q; auto.
  - intros Ep. destruct (bs_phase s), q1; try congruence; reflexivity.
Qed.
Print Assumptions C91_plots.

(** Apart from the plots the session is the one of C29-C37: the requests, the
    states and everything proved about them. *)
Theorem C91_same_session :
  forall (N : NumOps) (av : @asf_val N) p names mult ideal nadir start x0 s0 s qs,
  plot_wf p names mult ideal nadir -> nb_init av p ideal nadir start x0 = Ok s0 ->
  nb_reach_p av p names mult ideal nadir s0 s qs -> nb_reach av p ideal nadir s0 s (map fst qs).
Proof. intros. eapply reach_p_reach; eauto. Qed.
Print Assumptions C91_same_session.

(** Making the plot fails an answer only in one case; nothing is changed then. *)
Theorem C91_failure :
  forall (N : NumOps) (av : @asf_val N) p names mult ideal nadir start x0 s0 s qs q pl resp s' e,
  plot_wf p names mult ideal nadir -> nb_init av p ideal nadir start x0 = Ok s0 ->
  nb_reach_p av p names mult ideal nadir s0 s qs -> In (q, pl) qs ->
  (forall d, resp = Some d -> nb_validate p ideal nadir q d = Ok tt) ->
  nb_iterate_p av p names mult ideal nadir q resp s = (s', Raise e) ->
  s' = s /\
  (nb_iterate av p ideal nadir q resp s = (s, Raise e) \/ (e = ValueErr /\ bs_phase s = PIntermediate /\ q = QInter [] [])).
Proof.
  intros N av p names mult ideal nadir start x0 s0 s qs q pl resp s' e HW H0 HR Hin HV H.
  destruct (nb_iterate av p ideal nadir q resp s) as [s1 out] eqn:E.
  rewrite (step_full av p names mult ideal nadir HW start x0 s0 s qs q pl resp s1 out H0 HR Hin HV E) in H.
  pose proof (reach_inv av p names mult ideal nadir HW _ _ _ _ _ H0 HR) as HI. pose proof (In_fst _ _ _ Hin) as Hq.
  destruct out as [q1|e1].
  - destruct (unplottable (bs_phase s) q1) eqn:U; [|discriminate]. injection H as <- <-. split; auto. right.
    destruct (unplottable_from av p ideal nadir _ _ _ _ _ _ HI Hq E U) as (A & B & _). auto.
  - injection H as <- <-. destruct (inv_step av p ideal nadir _ _ _ _ _ _ HI Hq HV E) as (_ & G & _). rewrite (G _ eq_refl). auto.
Qed.
Print Assumptions C91_failure.

(** In that case every accepted answer fails. *)
Theorem C91_nothing_to_choose_from :
  forall (N : NumOps) (av : @asf_val N) p names mult ideal nadir start x0 s0 s qs pl d,
  plot_wf p names mult ideal nadir -> nb_init av p ideal nadir start x0 = Ok s0 ->
  nb_reach_p av p names mult ideal nadir s0 s qs -> In (QInter [] [], pl) qs -> bs_phase s = PIntermediate ->
  nb_validate p ideal nadir (QInter [] []) d = Ok tt ->
  nb_iterate_p av p names mult ideal nadir (QInter [] []) (Some d) s = (s, Raise ValueErr).
Proof.
  intros N av p names mult ideal nadir start x0 s0 s qs pl d HW H0 HR Hin Ep HV.
  pose proof (validate_inter_nil d HV) as Ei.
  assert (E : nb_iterate av p ideal nadir (QInter [] []) (Some d) s = (w_phase PPreferred s, Ok (QPref [] []))).
  { unfold nb_iterate, sbind, sget, lift, smod, sret. rewrite Ep. cbn [resp_]. unfold nb_handle_inter. rewrite Ei. reflexivity. }
  erewrite (step_full av p names mult ideal nadir HW start x0 s0 s qs _ pl (Some d)); [|exact H0|exact HR|exact Hin| |exact E].
  - rewrite Ep. reflexivity.
  - intros d' Ed. injection Ed as <-. exact HV.
Qed.
Print Assumptions C91_nothing_to_choose_from.

(** It cannot happen as long as no empty list of solutions has been shown ... *)
Theorem C91_never_fails_partial :
  forall (N : NumOps) (av : @asf_val N) p names mult ideal nadir start x0 s0 s qs q pl resp s' e,
  plot_wf p names mult ideal nadir -> nb_init av p ideal nadir start x0 = Ok s0 ->
  nb_reach_p av p names mult ideal nadir s0 s qs -> (forall pl, ~ In (QSave [] [], pl) qs) -> In (q, pl) qs ->
  (forall d, resp = Some d -> nb_validate p ideal nadir q d = Ok tt) ->
  nb_iterate_p av p names mult ideal nadir q resp s = (s', Raise e) ->
  nb_iterate av p ideal nadir q resp s = (s, Raise e).
Proof.
  intros N av p names mult ideal nadir start x0 s0 s qs q pl resp s' e HW H0 HR NE Hin HV H.
  destruct (C91_failure N av p names mult ideal nadir start x0 s0 s qs q pl resp s' e HW H0 HR Hin HV H) as [_ [G|(_ & _ & ->)]]; [exact G|].
  exfalso. exact (inter_nonempty av p names mult ideal nadir HW _ _ _ _ _ H0 HR NE _ _ _ Hin eq_refl).
Qed.
Print Assumptions C91_never_fails_partial.

(** ... and that takes a number of desired solutions that is a fraction below one. *)
Theorem C91_empty_list :
  forall (N : NumOps) (av : @asf_val N) p names mult ideal nadir start x0 s0 s qs q pl resp s' sols pl',
  plot_wf p names mult ideal nadir -> nb_init av p ideal nadir start x0 = Ok s0 ->
  nb_reach_p av p names mult ideal nadir s0 s qs -> In (q, pl) qs -> bs_phase s <> PEnd ->
  (forall d, resp = Some d -> nb_validate p ideal nadir q d = Ok tt) ->
  nb_iterate_p av p names mult ideal nadir q resp s = (s', Ok (QSave sols [], pl')) ->
  exists d x n, resp = Some d /\ bd_ndes d = Some (VFloat x (Some n)) /\ (n <= 0)%Z.
Proof.
  intros N av p names mult ideal nadir start x0 s0 s qs q pl resp s' sols pl' HW H0 HR Hin Ep HV H.
  destruct (nb_iterate av p ideal nadir q resp s) as [s1 out] eqn:E.
  rewrite (step_full av p names mult ideal nadir HW start x0 s0 s qs q pl resp s1 out H0 HR Hin HV E) in H.
  destruct out as [q1|e]; [|discriminate]. destruct (unplottable (bs_phase s) q1); [discriminate|]. injection H as <- -> _.
  pose proof (reach_inv av p names mult ideal nadir HW _ _ _ _ _ H0 HR) as (_ & _ & I3). rewrite Forall_forall in I3.
  destruct (empty_save av p ideal nadir s q resp s1 sols Ep (I3 _ (In_fst _ _ _ Hin)) HV E) as (so & ob & d & v & ix & -> & -> & Ei & Ne & Ev & n & En & Hn).
  destruct (validate_inter_float ob d ix v n (HV d eq_refl) Ei Ne Ev En Hn) as (x & ->). exists d, x, n. auto.
Qed.
Print Assumptions C91_empty_list.

(** The session of PNimbus8 with plots: all hypotheses are met, in every phase. *)
Definition bnames : list string := ["cost"; "risk"]%string.
Definition b_ans (t : nat) : list (nb_dict F64) :=
  firstn t [b_classify; dsave [0; 2]%Z; dinter [0; 3]%Z 2; dsave []; dinter [] 0; dpref 1 false].
Definition b_runp (t : nat) := match demo_p bav bP bnames [] bI bN None [] (b_ans t) with Some r => r | None => (MkBS [] [] [] [] PEnd, QClass [], []) end.
Lemma bP_plot_wf : plot_wf bP bnames [] bI bN.
Proof. repeat split; repeat constructor. Qed.
Lemma b_runp_ok : forallb (fun t => is_some (demo_p bav bP bnames [] bI bN None [] (b_ans t))) (seq 0 7) = true.
Proof. vm_compute. reflexivity. Qed.
Lemma b_reach_p t : t <= 6 -> exists s0, nb_init bav bP bI bN None [] = Ok s0 /\
  nb_reach_p bav bP bnames [] bI bN s0 (fst (fst (b_runp t))) (snd (b_runp t)) /\ shown_p (snd (fst (b_runp t))) (snd (b_runp t)).
Proof.
  intros H. apply (demo_p_reach bav bP bnames [] bI bN None [] (b_ans t)). unfold b_runp.
  apply (some_get (demo_p bav bP bnames [] bI bN None [] (b_ans t)) (MkBS [] [] [] [] PEnd, QClass [], [])).
  exact (proj1 (forallb_forall (fun t => is_some (demo_p bav bP bnames [] bI bN None [] (b_ans t))) (seq 0 7)) b_runp_ok t (proj2 (in_seq 7 0 t) (conj (Nat.le_0_l t) (le_n_S _ _ H)))).
Qed.
Definition phase_rank (ph : nb_phase) : nat := match ph with PClassify => 0 | PArchive => 1 | PIntermediate => 2 | PPreferred => 3 | PEnd => 4 end.
Example C91_hypotheses_met :
  plot_wf bP bnames [] bI bN /\
  (forall t, t <= 6 -> exists s0, nb_init bav bP bI bN None [] = Ok s0 /\
     nb_reach_p bav bP bnames [] bI bN s0 (fst (fst (b_runp t))) (snd (b_runp t)) /\ shown_p (snd (fst (b_runp t))) (snd (b_runp t))) /\
  map (fun t => phase_rank (bs_phase (fst (fst (b_runp t))))) (seq 0 7) = [0; 1; 2; 1; 2; 3; 4] /\
  map (fun t => match snd (b_runp t) with (_, Some pl) :: _ => length (pl_data pl) | _ => 0 end) (seq 0 7) = [0; 4; 4; 2; 4; 4; 1].
Proof.
  split; [exact bP_plot_wf|]. split; [exact b_reach_p|]. split; vm_compute; reflexivity.
Qed.

(** Creating the plot can fail an accepted answer: half an intermediate solution is
    asked for, the empty list is shown and, nothing having been saved, the request
    for a most preferred solution raises ValueError. *)
Definition half : F64 := 0.5%float.
Definition dhalf : nb_dict F64 := MkBD None None None (Some [0; 1]%Z) (Some (VFloat half (Some 0%Z))) None None.
Definition h_ans : list (nb_dict F64) := [b_classify; dsave []; dhalf; dsave []].
Definition h_check (o : option (nb_state F64 * nb_request F64 * list (nb_request F64 * option (nb_plot F64)))) : bool :=
  match o with Some (s, QInter [] [], _) => Nat.eqb (phase_rank (bs_phase s)) 2 | _ => false end.
Lemma h_check_ok o : h_check o = true -> exists s qs, o = Some (s, QInter [] [], qs) /\ bs_phase s = PIntermediate.
Proof.
  destruct o as [[[s [| |[|a sols] [|b objs]| |]] qs]|]; cbn; try discriminate. intros H. exists s, qs. split; auto.
  destruct (bs_phase s); (discriminate || reflexivity).
Qed.
Lemma h_ok : h_check (demo_p bav bP bnames [] bI bN None [] h_ans) = true.
Proof. vm_compute. reflexivity. Qed.
Theorem C91_plot_fails_refuted : exists s0 s qs pl d,
  nb_init bav bP bI bN None [] = Ok s0 /\ nb_reach_p bav bP bnames [] bI bN s0 s qs /\ In (QInter [] [], pl) qs /\
  nb_validate bP bI bN (QInter [] []) d = Ok tt /\
  nb_iterate_p bav bP bnames [] bI bN (QInter [] []) (Some d) s = (s, Raise ValueErr).
Proof.
  destruct (h_check_ok _ h_ok) as (s & qs & E & Ep).
  destruct (demo_p_reach bav bP bnames [] bI bN None [] h_ans _ E) as (s0 & I0 & R & (pl & Q)). cbn [fst snd] in *.
  exists s0, s, qs, pl, (dinter [] 0). split; [exact I0|]. split; [exact R|]. split; [exact Q|].
  assert (V : nb_validate bP bI bN (QInter [] []) (dinter [] 0) = Ok tt) by (vm_compute; reflexivity).
  split; [exact V|]. exact (C91_nothing_to_choose_from F64 bav bP bnames [] bI bN None [] s0 s qs pl (dinter [] 0) bP_plot_wf I0 R Q Ep V).
Qed.
Print Assumptions C91_plot_fails_refuted.
