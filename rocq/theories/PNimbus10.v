(** * NIMBUS: a session can always be brought to an end. *)
From Coq Require Import ZArith String List Bool Lia.
From Verif Require Import Num Py Np Spec NpFacts MNimbus SNimbus PNimbus PNimbus2 PNimbus4 PNimbus5 PNimbus7 MNimbusPlot SNimbusPlot PNimbusPlot SNimbus2 PNimbus9.
Import ListNotations.

Section Finish.
  Context {N : NumOps}.
  Notation vec := (list N).
  Notation mat := (list (list N)).
  Variables (av : @asf_val N) (p : nb_problem N) (names : list string) (mult ideal nadir : vec).
  Hypothesis HW : plot_wf p names mult ideal nadir.
  Notation iter := (nb_iterate av p ideal nadir).
  Notation iter_p := (nb_iterate_p av p names mult ideal nadir).
  Notation lead := (leads av p names mult ideal nadir).
  Notation shown := (shown_p (N:=N)).

  (** what a successful call did *)
  Lemma step_cases s qs q resp s' q' pl' : inv p s qs -> In q qs ->
    (forall d, resp = Some d -> nb_validate p ideal nadir q d = Ok tt) ->
    iter_p q resp s = (s', Ok (q', pl')) ->
    match bs_phase s with
    | PClassify => exists f sols objs, q = QClass f /\ q' = QSave sols objs /\ objs <> [] /\ s' = w_phase PArchive s
    | PArchive => exists sols objs ix fs fo, q = QSave sols objs /\ rows_at sols ix fs /\ rows_at objs ix fo /\
        s' = MkBS (bs_sol s) (bs_obj s) (bs_asols s ++ fs) (bs_aobjs s ++ fo) PIntermediate /\
        q' = QInter ((bs_asols s ++ fs) ++ others sols ix) ((bs_aobjs s ++ fo) ++ others objs ix)
    | PIntermediate => exists sols objs, q = QInter sols objs /\ objs <> [] /\
        ((exists a b, q' = QSave a b /\ s' = w_phase PArchive s) \/ (q' = QPref sols objs /\ s' = w_phase PPreferred s))
    | PPreferred => exists sols objs, q = QPref sols objs /\
        ((exists f, q' = QClass f /\ bs_phase s' = PClassify) \/ (exists x f, q' = QStop x f /\ bs_phase s' = PEnd))
    | PEnd => s' = s /\ q' = q
    end.
  Proof.
    intros HI Hin HV H. destruct (iter q resp s) as [s1 out] eqn:E.
    rewrite (step_p av p names mult ideal nadir HW s qs q resp s1 out HI Hin HV E) in H.
    destruct out as [q1|]; [|discriminate]. destruct (unplottable (bs_phase s) q1) eqn:U; [discriminate|].
    injection H as <- <- _. destruct HI as (I1 & I2 & I3). assert (Hg : good p q) by (rewrite Forall_forall in I3; auto).
    destruct (bs_phase s) eqn:Ep.
    - destruct q as [f| | | |]; try (rewrite iter_wrong in E by (rewrite Ep; (discriminate || intros [])); discriminate).
      pose proof E as E0. apply iter_cls in E; auto. destruct E as [(e & _ & E)|(d & q & -> & Hh & -> & E)]; [discriminate|]. injection E as <-.
      destruct (handle_cls_shape _ _ _ _ _ _ _ Hh) as (sols & objs & -> & G). exists f, sols, objs. repeat split; auto.
      unfold nb_handle_cls in Hh. apply rbind_ok in Hh as (cl & _ & H). apply rbind_ok in H as (nv & _ & H).
      apply rbind_ok in H as (n & _ & H). apply rbind_ok in H as (lv & _ & H). exact (new_nonempty av p ideal nadir _ _ _ _ _ _ _ _ _ _ H).
    - destruct q as [|so ob| | |]; try (rewrite iter_wrong in E by (rewrite Ep; (discriminate || intros [])); discriminate).
      apply iter_save in E; auto. destruct E as [(_ & _ & E)|(d & ix & fs & fo & -> & Hix & Rs & Ro & -> & E)]; [discriminate|].
      injection E as ->. exists so, ob, ix, fs, fo. auto.
    - destruct q as [| |so ob| |]; try (rewrite iter_wrong in E by (rewrite Ep; (discriminate || intros [])); discriminate).
      pose proof E as E0. apply iter_inter in E; auto. destruct E as [(e & _ & E & _)|(d & q & -> & Hh & E & C)]; [discriminate|]. injection E as <-.
      exists so, ob. split; auto. destruct C as [(a & b & -> & G & ->)|(-> & ->)].
      + split; [|eauto]. intros ->. pose proof (validate_inter_nil d (HV d eq_refl)) as Ei. unfold nb_handle_inter in Hh. rewrite Ei in Hh. discriminate.
      + split; [|auto]. intros ->. discriminate.
    - destruct q as [| | |so ob|]; try (rewrite iter_wrong in E by (rewrite Ep; (discriminate || intros [])); discriminate).
      apply iter_pref in E; auto. destruct E as [(_ & _ & E)|(d & z & b & x & f & _ & _ & _ & _ & _ & _ & -> & E)]; [discriminate|].
      injection E as ->. exists so, ob. split; auto. destruct b; [left|right]; eauto.
    - rewrite iter_end in E by auto. injection E as <- <-. auto.
  Qed.

  (** the requests an unfinished session can go on with *)
  Definition alive (s : nb_state N) (qs : list (nb_request N * option (nb_plot N))) : Prop :=
    (bs_phase s = PClassify -> exists f, shown (QClass f) qs) /\
    (bs_phase s = PArchive \/ (exists a b, shown (QInter a b) qs) -> exists a b, shown (QSave a b) qs /\ b <> []) /\
    (bs_phase s = PIntermediate \/ shown (QSave [] []) qs -> exists a b, shown (QInter a b) qs /\ b <> []) /\
    (bs_phase s = PIntermediate -> exists a b, shown (QInter (bs_asols s ++ a) (bs_aobjs s ++ b)) qs) /\
    (bs_phase s = PPreferred -> exists a b, shown (QPref a b) qs /\ b <> []).
  Lemma sh_cons q r qs : shown q qs -> shown q (r :: qs).
  Proof. intros (pl & H). exists pl. right. exact H. Qed.
  Lemma sh_new q pl qs : shown q ((q, pl) :: qs).
  Proof. exists pl. left. reflexivity. Qed.
  Lemma sh_inv q q1 pl qs : shown q ((q1, pl) :: qs) -> q = q1 \/ shown q qs.
  Proof. intros (pl' & [H|H]); [left; injection H as -> _; reflexivity|right; exists pl'; exact H]. Qed.

  Lemma reach_alive start x0 s0 s qs : nb_init av p ideal nadir start x0 = Ok s0 ->
    nb_reach_p av p names mult ideal nadir s0 s qs -> alive s qs.
  Proof.
    intros H0. induction 1 as [|s qs q pl resp s' out HR IH Hin HV H].
    { destruct (inv_init _ _ _ _ _ _ _ H0) as (_ & _ & _ & Ep). unfold alive. rewrite Ep.
      split; [intros _; eexists; exists None; left; reflexivity|].
      repeat split; (intros G || idtac); try (destruct G as [G|G]); try discriminate;
        (destruct G as (a & b & pl & [G|[]]) || destruct G as (pl & [G|[]])); discriminate. }
    pose proof (reach_inv av p names mult ideal nadir HW _ _ _ _ _ H0 HR) as HI.
    destruct out as [[q' pl']|e].
    2:{ destruct (iter q resp s) as [s1 out] eqn:E. rewrite (step_full av p names mult ideal nadir HW _ _ _ _ _ _ _ _ _ _ H0 HR Hin HV E) in H.
        assert (s' = s) as ->; [|exact IH].
        destruct out as [q1|e1]; [destruct (unplottable (bs_phase s) q1); [injection H as <- _; reflexivity|discriminate]|].
        injection H as <- _. eapply (inv_step av p ideal nadir); eauto using In_fst. }
    destruct IH as (A1 & A2 & A3 & A4 & A5).
    pose proof (step_cases s (map fst qs) q resp s' q' pl' HI (In_fst _ _ _ Hin) HV H) as C.
    assert (Sq : shown q qs) by (exists pl; exact Hin).
    assert (B2 : forall Q : Prop, (exists a b, shown (QInter a b) ((q', pl') :: qs)) -> (forall a b, q' <> QInter a b) -> exists a b, shown (QSave a b) ((q', pl') :: qs) /\ b <> []).
    { intros _ (a & b & G) Hq. apply sh_inv in G as [G|G]; [exfalso; eapply Hq; eauto|].
      destruct A2 as (a' & b' & G1 & G2); [right; eauto|]. exists a', b'. split; [apply sh_cons; auto|auto]. }
    assert (B3 : shown (QSave [] []) ((q', pl') :: qs) -> q' <> QSave [] [] -> exists a b, shown (QInter a b) ((q', pl') :: qs) /\ b <> []).
    { intros G Hq. apply sh_inv in G as [G|G]; [congruence|].
      destruct A3 as (a' & b' & G1 & G2); [right; auto|]. exists a', b'. split; [apply sh_cons; auto|auto]. }
    destruct (bs_phase s) eqn:Ep.
    - destruct C as (f & sols & objs & -> & -> & Hne & ->). unfold alive. cbn [w_phase bs_phase].
      split; [discriminate|]. split; [intros _; exists sols, objs; split; [apply sh_new|auto]|].
      split; [intros [G|G]; [discriminate|]; apply B3; [exact G|congruence]|]. split; discriminate.
    - destruct C as (sols & objs & ix & fs & fo & -> & Rs & Ro & -> & ->). unfold alive. cbn [bs_phase bs_asols bs_aobjs].
      split; [discriminate|]. split.
      { intros _. destruct A2 as (a' & b' & G1 & G2); [left; auto|]. exists a', b'. split; [apply sh_cons; auto|auto]. }
      split.
      { intros _. destruct ((bs_aobjs s ++ fo) ++ others objs ix) as [|o l] eqn:El.
        - apply app_eq_nil in El as [El Eo]. apply app_eq_nil in El as [_ El]. subst fo. inversion Ro; subst ix. rewrite others_nil in Eo. subst objs.
          destruct HI as (_ & _ & I3). rewrite Forall_forall in I3. specialize (I3 _ (In_fst _ _ _ Hin)). cbn in I3. inversion I3; subst sols.
          destruct A3 as (a' & b' & G1 & G2); [right; auto|]. exists a', b'. split; [apply sh_cons; auto|auto].
        - eexists _, _. split; [apply sh_new|discriminate]. }
      split; [intros _; eexists _, _; apply sh_new|discriminate].
    - destruct C as (sols & objs & -> & Hne & [(a & b & -> & ->)|(-> & ->)]); unfold alive; cbn [w_phase bs_phase].
      + assert (A2' : exists a0 b0, shown (QSave a0 b0) ((QSave a b, pl') :: qs) /\ b0 <> []).
        { destruct A2 as (a' & b' & G1 & G2); [right; eauto|]. exists a', b'. split; [apply sh_cons; auto|auto]. }
        split; [discriminate|]. split; [intros _; exact A2'|].
        split; [intros _; exists sols, objs; split; [apply sh_cons; exact Sq|auto]|]. split; discriminate.
      + split; [discriminate|]. split; [intros [G|G]; [discriminate|apply (B2 True G); discriminate]|].
        split; [intros [G|G]; [discriminate|apply B3; [exact G|discriminate]]|]. split; [discriminate|].
        intros _. exists sols, objs. split; [apply sh_new|auto].
    - destruct C as (sols & objs & -> & [(f & -> & Ep')|(x & f & -> & Ep')]); unfold alive; rewrite Ep'.
      + split; [intros _; exists f; apply sh_new|]. split; [intros [G|G]; [discriminate|apply (B2 True G); discriminate]|].
        split; [intros [G|G]; [discriminate|apply B3; [exact G|discriminate]]|]. split; discriminate.
      + split; [discriminate|]. split; [intros [G|G]; [discriminate|apply (B2 True G); discriminate]|].
        split; [intros [G|G]; [discriminate|apply B3; [exact G|discriminate]]|]. split; discriminate.
    - destruct C as (-> & ->). unfold alive. rewrite Ep. split; [discriminate|].
      assert (back : forall r, shown r ((q, pl') :: qs) -> shown r qs) by (intros r G; apply sh_inv in G as [->|G]; auto).
      split; [intros [G|(a & b & G)]; [discriminate|]; destruct A2 as (a' & b' & G1 & G2); [right; eauto|]; exists a', b'; split; [apply sh_cons; auto|auto]|].
      split; [intros [G|G]; [discriminate|]; destruct A3 as (a' & b' & G1 & G2); [right; auto|]; exists a', b'; split; [apply sh_cons; auto|auto]|]. split; discriminate.
  Qed.

  (** ** Answers that always work, one per phase *)
  Definition a_free (k : nat) (cur : vec) : nb_dict N := MkBD (Some (repeat CFree k)) (Some cur) (Some (VInt 1)) None None None None.
  Definition a_keep : nb_dict N := MkBD None None None (Some []) None None None.
  Definition a_none : nb_dict N := MkBD None None None (Some []) (Some (VInt 0)) None None.
  Definition a_pick (i : nat) (b : bool) : nb_dict N := MkBD None None None None None (Some (VInt (Z.of_nat i))) (Some (VBool b)).

  Lemma keep_ok s qs sols objs : inv p s qs -> In (QSave sols objs) qs -> bs_phase s = PArchive ->
    nb_validate p ideal nadir (QSave sols objs) a_keep = Ok tt /\
    iter (QSave sols objs) (Some a_keep) s = (w_phase PIntermediate s, Ok (QInter (bs_asols s ++ sols) (bs_aobjs s ++ objs))).
  Proof.
    intros (_ & _ & I3) Hin Ep. assert (V : nb_validate p ideal nadir (QSave sols objs) a_keep = Ok tt) by reflexivity. split; [exact V|].
    rewrite Forall_forall in I3. specialize (I3 _ Hin). cbn in I3.
    destruct (iter (QSave sols objs) (Some a_keep) s) as [s' out] eqn:E. apply iter_save in E; auto.
    - destruct E as [(E & _)|(d & ix & fs & fo & Ed & Hix & Rs & Ro & -> & ->)]; [discriminate|]. injection Ed as <-. injection Hix as <-.
      inversion Rs; inversion Ro; subst. rewrite !others_nil, !app_nil_r. reflexivity.
    - intros d E'. injection E' as <-. exact V.
  Qed.
  Lemma none_ok s sols objs : bs_phase s = PIntermediate ->
    nb_validate p ideal nadir (QInter sols objs) a_none = Ok tt /\
    iter (QInter sols objs) (Some a_none) s = (w_phase PPreferred s, Ok (QPref sols objs)).
  Proof. intros Ep. split; [reflexivity|]. unfold nb_iterate, sbind, sget, lift, smod, sret. rewrite Ep. reflexivity. Qed.
  Lemma pick_ok s qs sols objs i f b : inv p s qs -> In (QPref sols objs) qs -> bs_phase s = PPreferred -> nth_error objs i = Some f ->
    exists x, nth_error sols i = Some x /\ matches p x f /\ nb_validate p ideal nadir (QPref sols objs) (a_pick i b) = Ok tt /\
    iter (QPref sols objs) (Some (a_pick i b)) s = (MkBS x f (bs_asols s) (bs_aobjs s) (if b then PClassify else PEnd), Ok (if b then QClass f else QStop x f)).
  Proof.
    intros (_ & _ & I3) Hin Ep Hi. assert (Li : i < length objs) by (apply nth_error_Some; congruence).
    assert (V : nb_validate p ideal nadir (QPref sols objs) (a_pick i b) = Ok tt).
    { cbn. destruct (Z.leb_spec 0 (Z.of_nat i)); [|lia]. destruct (Z.ltb_spec (Z.of_nat i) (Z.of_nat (length objs))); [reflexivity|lia]. }
    rewrite Forall_forall in I3. specialize (I3 _ Hin). cbn in I3. destruct (Forall2_nth _ _ _ _ _ I3 Hi) as (x & Hx & Hm).
    exists x. repeat (split; [assumption|]).
    destruct (iter (QPref sols objs) (Some (a_pick i b)) s) as [s' out] eqn:E. apply iter_pref in E; auto.
    - destruct E as [(E & _)|(d & z & b' & x' & f' & Ed & Hz & Hb & H0 & Hx' & Hf' & -> & ->)]; [discriminate|]. injection Ed as <-.
      injection Hz as <-. injection Hb as <-. rewrite Nat2Z.id in Hx', Hf'. assert (x' = x) by congruence. assert (f' = f) by congruence. subst. reflexivity.
    - intros d E'. injection E' as <-. exact V.
  Qed.

  (** one such answer, with its plot *)
  Lemma lead_step s0 start x0 s qs q d s1 q1 : nb_init av p ideal nadir start x0 = Ok s0 -> nb_reach_p av p names mult ideal nadir s0 s qs ->
    shown q qs -> nb_validate p ideal nadir q d = Ok tt -> iter q (Some d) s = (s1, Ok q1) -> unplottable (bs_phase s) q1 = false ->
    exists pl qs', nb_reach_p av p names mult ideal nadir s0 s1 qs' /\ shown q1 qs' /\ iter_p q (Some d) s = (s1, Ok (q1, pl)).
  Proof.
    intros H0 HR (pl & Hin) HV E U. assert (HV' : forall d', Some d = Some d' -> nb_validate p ideal nadir q d' = Ok tt) by (intros d' E'; injection E' as <-; auto).
    pose proof (step_full av p names mult ideal nadir HW _ _ _ _ _ _ _ _ _ _ H0 HR Hin HV' E) as G. cbn beta iota in G. rewrite U in G.
    exists (plot_of p names mult ideal nadir (bs_phase s) q1), ((q1, plot_of p names mult ideal nadir (bs_phase s) q1) :: qs).
    split; [exact (nb_reach_p_step av p names mult ideal nadir s0 s qs q pl (Some d) s1 _ HR Hin HV' G)|]. split; [apply sh_new|exact G].
  Qed.

  Lemma from_pref start x0 s0 s qs sols objs i x f : nb_init av p ideal nadir start x0 = Ok s0 -> nb_reach_p av p names mult ideal nadir s0 s qs ->
    bs_phase s = PPreferred -> shown (QPref sols objs) qs -> nth_error sols i = Some x -> nth_error objs i = Some f ->
    exists s', lead 1 s (QPref sols objs) s' (QStop x f) /\ bs_phase s' = PEnd.
  Proof.
    intros H0 HR Ep Hq Hx Hf. pose proof (reach_inv av p names mult ideal nadir HW _ _ _ _ _ H0 HR) as HI.
    destruct Hq as (pl0 & Hq). destruct (pick_ok s _ sols objs i f false HI (In_fst _ _ _ Hq) Ep Hf) as (x' & Hx' & _ & V & E). assert (x' = x) by congruence. subst x'.
    destruct (lead_step _ _ _ _ _ _ _ _ _ H0 HR (ex_intro _ pl0 Hq) V E) as (pl & qs' & _ & _ & G); [rewrite Ep; reflexivity|].
    eexists. split; [eapply leads_S; [exact V|exact G|apply leads_O]|reflexivity].
  Qed.
  Lemma from_inter start x0 s0 s qs sols objs i x f : nb_init av p ideal nadir start x0 = Ok s0 -> nb_reach_p av p names mult ideal nadir s0 s qs ->
    bs_phase s = PIntermediate -> shown (QInter sols objs) qs -> nth_error sols i = Some x -> nth_error objs i = Some f ->
    exists s', lead 2 s (QInter sols objs) s' (QStop x f) /\ bs_phase s' = PEnd.
  Proof.
    intros H0 HR Ep Hq Hx Hf. destruct (none_ok s sols objs Ep) as [V E].
    destruct (lead_step _ _ _ _ _ _ _ _ _ H0 HR Hq V E) as (pl & qs' & R' & S' & G); [rewrite Ep; destruct objs; [destruct i; discriminate|reflexivity]|].
    destruct (from_pref _ _ _ _ _ _ _ _ _ _ H0 R' eq_refl S' Hx Hf) as (s' & G1 & G2).
    exists s'. split; [eapply leads_S; [exact V|exact G|exact G1]|exact G2].
  Qed.
  Lemma from_save start x0 s0 s qs sols objs i x f : nb_init av p ideal nadir start x0 = Ok s0 -> nb_reach_p av p names mult ideal nadir s0 s qs ->
    bs_phase s = PArchive -> shown (QSave sols objs) qs -> nth_error (bs_asols s ++ sols) i = Some x -> nth_error (bs_aobjs s ++ objs) i = Some f ->
    exists s', lead 3 s (QSave sols objs) s' (QStop x f) /\ bs_phase s' = PEnd.
  Proof.
    intros H0 HR Ep Hq Hx Hf. pose proof (reach_inv av p names mult ideal nadir HW _ _ _ _ _ H0 HR) as HI.
    destruct Hq as (pl0 & Hq). destruct (keep_ok s _ sols objs HI (In_fst _ _ _ Hq) Ep) as [V E].
    destruct (lead_step _ _ _ _ _ _ _ _ _ H0 HR (ex_intro _ pl0 Hq) V E) as (pl & qs' & R' & S' & G); [rewrite Ep; reflexivity|].
    destruct (from_inter _ _ _ _ _ _ _ _ _ _ H0 R' eq_refl S' Hx Hf) as (s' & G1 & G2).
    exists s'. split; [eapply leads_S; [exact V|exact G|exact G1]|exact G2].
  Qed.
  Lemma first_of (l : mat) : l <> [] -> exists f, nth_error l 0 = Some f.
  Proof. destruct l; [congruence|cbn; eauto]. Qed.

  (** all phases but the classification *)
  Lemma finish_rest start x0 s0 s qs : nb_init av p ideal nadir start x0 = Ok s0 -> nb_reach_p av p names mult ideal nadir s0 s qs ->
    bs_phase s <> PEnd -> bs_phase s <> PClassify ->
    exists q n s' x f, shown q qs /\ n <= 3 /\ lead n s q s' (QStop x f) /\ matches p x f /\ bs_phase s' = PEnd.
  Proof.
    intros H0 HR N1 N2. destruct (reach_alive _ _ _ _ _ H0 HR) as (A1 & A2 & A3 & A4 & A5).
    pose proof (reach_inv av p names mult ideal nadir HW _ _ _ _ _ H0 HR) as (_ & _ & I3). rewrite Forall_forall in I3.
    destruct (bs_phase s) eqn:Ep; try congruence.
    - destruct A2 as (a & b & G & Hb); [auto|]. pose proof G as (pl & Gi). pose proof (I3 _ (In_fst _ _ _ Gi)) as F. cbn in F.
      pose proof (reach_inv av p names mult ideal nadir HW _ _ _ _ _ H0 HR) as (_ & I2 & _).
      assert (F2 : Forall2 (matches p) (bs_asols s ++ a) (bs_aobjs s ++ b)) by (apply Forall2_app; auto).
      destruct (first_of (bs_aobjs s ++ b)) as (f & Hf); [intros E; apply app_eq_nil in E; tauto|]. destruct (Forall2_nth _ _ _ _ _ F2 Hf) as (x & Hx & Hm).
      destruct (from_save _ _ _ _ _ _ _ _ _ _ H0 HR Ep G Hx Hf) as (s' & G1 & G2). exists (QSave a b), 3, s', x, f. auto.
    - destruct A3 as (a & b & G & Hb); [auto|]. pose proof G as (pl & Gi). pose proof (I3 _ (In_fst _ _ _ Gi)) as F. cbn in F.
      destruct (first_of b Hb) as (f & Hf). destruct (Forall2_nth _ _ _ _ _ F Hf) as (x & Hx & Hm).
      destruct (from_inter _ _ _ _ _ _ _ _ _ _ H0 HR Ep G Hx Hf) as (s' & G1 & G2). exists (QInter a b), 2, s', x, f. auto.
    - destruct A5 as (a & b & G & Hb); [auto|]. pose proof G as (pl & Gi). pose proof (I3 _ (In_fst _ _ _ Gi)) as F. cbn in F.
      destruct (first_of b Hb) as (f & Hf). destruct (Forall2_nth _ _ _ _ _ F Hf) as (x & Hx & Hm).
      destruct (from_pref _ _ _ _ _ _ _ _ _ _ H0 HR Ep G Hx Hf) as (s' & G1 & G2). exists (QPref a b), 1, s', x, f. auto.
  Qed.

  (** an archived solution, from the two phases that see the archive next *)
  Lemma pick_rest start x0 s0 s qs i x f : nb_init av p ideal nadir start x0 = Ok s0 -> nb_reach_p av p names mult ideal nadir s0 s qs ->
    bs_phase s = PArchive \/ bs_phase s = PIntermediate -> nth_error (bs_asols s) i = Some x -> nth_error (bs_aobjs s) i = Some f ->
    exists q n s', shown q qs /\ n <= 3 /\ lead n s q s' (QStop x f) /\ bs_phase s' = PEnd.
  Proof.
    intros H0 HR Ep Hx Hf. destruct (reach_alive _ _ _ _ _ H0 HR) as (A1 & A2 & A3 & A4 & A5).
    assert (W : forall l, nth_error (bs_asols s ++ l) i = Some x) by (intros l; rewrite nth_error_app1; [exact Hx|apply nth_error_Some; congruence]).
    assert (W' : forall l, nth_error (bs_aobjs s ++ l) i = Some f) by (intros l; rewrite nth_error_app1; [exact Hf|apply nth_error_Some; congruence]).
    destruct Ep as [Ep|Ep].
    - destruct A2 as (a & b & G & Hb); [auto|]. destruct (from_save _ _ _ _ _ _ _ i x f H0 HR Ep G (W a) (W' b)) as (s' & G1 & G2). exists (QSave a b), 3, s'. auto.
    - destruct A4 as (a & b & G); [auto|]. destruct (from_inter _ _ _ _ _ _ _ i x f H0 HR Ep G (W a) (W' b)) as (s' & G1 & G2). exists (QInter (bs_asols s ++ a) (bs_aobjs s ++ b)), 2, s'. auto.
  Qed.
End Finish.

(** ** Data problems: also from a classification *)
Section Data.
  Context {N : NumOps} (L : OrdLaws N).
  Notation vec := (list N).
  Notation mat := (list (list N)).
  Variable fin : N -> Prop.
  Hypothesis Hsub : forall x y, fin x -> fin y -> nleb (nofZ 0) (nsub y x) = nleb x y.
  Variables (av : @asf_val N) (k : nat) (objs decs : mat) (fc : vec -> nat) (names : list string) (mult ideal nadir : vec).
  Notation p := (PDisc k objs decs fc).
  Hypothesis HW : nb_wf fin p ideal nadir.
  Hypothesis HP : plot_wf p names mult ideal nadir.
  Hypothesis AT : forall a row ref, exists v, av a row ref = Ok v.
  Hypothesis AF : forall a row ref v, Forall fin row -> av a row ref = Ok v -> nisnan v = false.
  Notation lead := (leads av p names mult ideal nadir).

  Lemma where_repeat c n : c <> CFree -> where_cls c (repeat CFree n) = [].
  Proof.
    intros H. unfold where_cls, argwhere. generalize 0. induction n as [|n IH]; intros i; cbn [repeat map argwhere_from]; [reflexivity|].
    destruct c; cbn [cls_eqb]; try congruence; apply IH.
  Qed.
  Lemma free_honoured (cur lv g : vec) n : honours (repeat CFree n) cur lv g.
  Proof. intros i c x Hc Hx. apply nth_error_In in Hc. apply repeat_spec in Hc. subst. exact I. Qed.
  Lemma free_ok s qs f : inv p s qs -> bs_phase s = PClassify ->
    nb_validate p ideal nadir (QClass f) (a_free k (bs_obj s)) = Ok tt /\
    exists sols os, os <> [] /\ nb_iterate av p ideal nadir (QClass f) (Some (a_free k (bs_obj s))) s = (w_phase PArchive s, Ok (QSave sols os)).
  Proof.
    intros (I1 & _ & _) Ep. destruct (obj_wf fin _ _ _ HW _ _ I1) as [O1 O2]. cbn in O1. split.
    - cbn [nb_validate nb_validate_cls a_free bd_cls bd_levels bd_nsol p_nobj]. rewrite O1, Nat.eqb_refl.
      rewrite !where_repeat by discriminate. cbn [length Nat.ltb Nat.leb negb rbind].
      assert (K : 2 <= k) by (destruct HP as (_ & K & _); exact K). destruct (Nat.eqb_spec k 1); [lia|].
      assert (E : forallb (fun c => negb (cls_eqb c CBad)) (repeat CFree k) = true) by (apply forallb_forall; intros c Hc; apply repeat_spec in Hc; subst; reflexivity).
      rewrite E. reflexivity.
    - destruct (I1) as (j & _ & Hj).
      destruct (new_solutions_done L fin Hsub av k objs decs fc ideal nadir HW AT AF s (repeat CFree k) (bs_obj s) 1 (bs_obj s) I1 (repeat_length _ _) O1 O2 (nth_error_In _ _ Hj) (free_honoured _ _ _ _)) as (q & Hq).
      destruct (new_solutions_shape _ _ _ _ _ _ _ _ _ _ _ _ _ Hq) as (rs & -> & _).
      exists (map fst rs), (map snd rs). split; [exact (new_nonempty av p ideal nadir _ _ _ _ _ _ _ _ _ _ Hq)|].
      unfold nb_iterate, sbind, sget, lift, smod, sret. rewrite Ep. cbn [resp_ nb_handle_cls]. unfold nb_handle_cls. cbn [a_free bd_cls bd_levels bd_nsol key rbind py_toint py_int].
      rewrite Hq. reflexivity.
  Qed.

  Lemma finish_data start x0 s0 s qs : nb_init av p ideal nadir start x0 = Ok s0 -> nb_reach_p av p names mult ideal nadir s0 s qs ->
    bs_phase s <> PEnd ->
    exists q n s' x f, shown_p q qs /\ n <= 4 /\ lead n s q s' (QStop x f) /\ matches p x f /\ bs_phase s' = PEnd.
  Proof.
    intros H0 HR N1. destruct (bs_phase s) eqn:Ep; try congruence.
    2-4: (destruct (finish_rest av p names mult ideal nadir HP _ _ _ _ _ H0 HR) as (q & n & s' & x & f & G1 & G2 & G3); [congruence|congruence|]; exists q, n, s', x, f; repeat split; try tauto; lia).
    destruct (reach_alive av p names mult ideal nadir HP _ _ _ _ _ H0 HR) as (A1 & _). destruct (A1 Ep) as (f0 & G).
    pose proof (reach_inv av p names mult ideal nadir HP _ _ _ _ _ H0 HR) as HI.
    destruct (free_ok s _ f0 HI Ep) as (V & sols & os & Hne & E).
    destruct (lead_step av p names mult ideal nadir HP _ _ _ _ _ _ _ _ _ H0 HR G V E) as (pl & qs' & R' & S' & G'); [rewrite Ep; reflexivity|].
    pose proof (reach_inv av p names mult ideal nadir HP _ _ _ _ _ H0 R') as (_ & I2 & I3). rewrite Forall_forall in I3. pose proof S' as (pl1 & Gi).
    pose proof (I3 _ (In_fst _ _ _ Gi)) as F. cbn in F, I2.
    assert (F2 : Forall2 (matches p) (bs_asols s ++ sols) (bs_aobjs s ++ os)) by (apply Forall2_app; auto).
    destruct (first_of (bs_aobjs s ++ os)) as (f & Hf); [intros E'; apply app_eq_nil in E'; tauto|]. destruct (Forall2_nth _ _ _ _ _ F2 Hf) as (x & Hx & Hm).
    destruct (from_save av p names mult ideal nadir HP _ _ _ _ _ _ _ _ _ _ H0 R' eq_refl S' Hx Hf) as (s' & G1 & G2).
    exists (QClass f0), 4, s', x, f. repeat split; auto. eapply leads_S; [exact V|exact G'|exact G1].
  Qed.
  Lemma pick_cls start x0 s0 s qs i x f f0 : nb_init av p ideal nadir start x0 = Ok s0 -> nb_reach_p av p names mult ideal nadir s0 s qs ->
    bs_phase s = PClassify -> shown_p (QClass f0) qs -> nth_error (bs_asols s) i = Some x -> nth_error (bs_aobjs s) i = Some f ->
    exists s', lead 4 s (QClass f0) s' (QStop x f) /\ bs_phase s' = PEnd.
  Proof.
    intros H0 HR Ep G Hx Hf. pose proof (reach_inv av p names mult ideal nadir HP _ _ _ _ _ H0 HR) as HI.
    destruct (free_ok s _ f0 HI Ep) as (V & sols & os & Hne & E).
    destruct (lead_step av p names mult ideal nadir HP _ _ _ _ _ _ _ _ _ H0 HR G V E) as (pl & qs' & R' & S' & G'); [rewrite Ep; reflexivity|].
    assert (W : nth_error (bs_asols s ++ sols) i = Some x) by (rewrite nth_error_app1; [exact Hx|apply nth_error_Some; congruence]).
    assert (W' : nth_error (bs_aobjs s ++ os) i = Some f) by (rewrite nth_error_app1; [exact Hf|apply nth_error_Some; congruence]).
    destruct (from_save av p names mult ideal nadir HP _ _ _ _ _ _ _ i x f H0 R' eq_refl S' W W') as (s' & G1 & G2).
    exists s'. split; auto. eapply leads_S; [exact V|exact G'|exact G1].
  Qed.
  Lemma pick_data start x0 s0 s qs i x f : nb_init av p ideal nadir start x0 = Ok s0 -> nb_reach_p av p names mult ideal nadir s0 s qs ->
    bs_phase s <> PEnd -> nth_error (bs_asols s) i = Some x -> nth_error (bs_aobjs s) i = Some f ->
    exists q n s', shown_p q qs /\ n <= 5 /\ lead n s q s' (QStop x f) /\ bs_phase s' = PEnd.
  Proof.
    intros H0 HR N1 Hx Hf. destruct (reach_alive av p names mult ideal nadir HP _ _ _ _ _ H0 HR) as (A1 & _ & _ & _ & A5).
    destruct (bs_phase s) eqn:Ep; try congruence.
    2-3: (destruct (pick_rest av p names mult ideal nadir HP _ _ _ _ _ i x f H0 HR) as (q & n & s' & G1 & G2 & G3); [tauto|auto|auto|]; exists q, n, s'; repeat split; try tauto; lia).
    - destruct (A1 eq_refl) as (f0 & G). destruct (pick_cls _ _ _ _ _ i x f f0 H0 HR Ep G Hx Hf) as (s' & G1 & G2). exists (QClass f0), 4, s'. auto.
    - destruct (A5 eq_refl) as (a & b & G & Hb). destruct (first_of b Hb) as (g & Hg).
      pose proof (reach_inv av p names mult ideal nadir HP _ _ _ _ _ H0 HR) as HI. pose proof G as (pl0 & Gi).
      destruct (pick_ok av p ideal nadir s _ a b 0 g true HI (In_fst _ _ _ Gi) Ep Hg) as (y & _ & _ & V & E).
      destruct (lead_step av p names mult ideal nadir HP _ _ _ _ _ _ _ _ _ H0 HR G V E) as (pl & qs' & R' & S' & G'); [rewrite Ep; reflexivity|].
      destruct (pick_cls _ _ _ _ _ i x f g H0 R' eq_refl S' Hx Hf) as (s' & G1 & G2). exists (QPref a b), 5, s'. repeat split; auto. eapply leads_S; [exact V|exact G'|exact G1].
  Qed.
End Data.
