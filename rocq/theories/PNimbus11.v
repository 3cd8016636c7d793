(** * NIMBUS: every solution of a data problem is weakly Pareto optimal. *)
From Coq Require Import ZArith List Bool Lia.
From Verif Require Import Num Py Np Spec NpFacts MNimbus SNimbus PNimbus PNimbus2 PNimbus3 SNimbus3.
Import ListNotations.

Section Weak.
  Context {N : NumOps} (L : OrdLaws N).
  Notation vec := (list N).
  Notation mat := (list (list N)).
  Variable fin : N -> Prop.
  Hypothesis Hslack : slack_monotone fin.
  Variables (av : @asf_val N) (k : nat) (objs decs : mat) (fc : vec -> nat) (ideal nadir : vec).
  Let p : nb_problem N := PDisc k objs decs fc.
  Hypothesis HN : nan_on_nan_rows av.
  Hypothesis HW : nb_wf fin p ideal nadir.
  Variable good_cls : vec -> list cls -> vec -> Prop.
  Hypothesis Hpoint : forall ref, In ref objs -> improves_on av objs (APoint nadir ideal) ref.
  Hypothesis Hasked : forall d f cl lv a ref, nb_validate p ideal nadir (QClass f) d = Ok tt -> bd_cls d = Some cl -> bd_levels d = Some lv ->
    good_cls f cl lv -> In f objs -> asked k ideal nadir cl lv f a ref -> improves_on av objs a ref.

  Lemma ltb_not_leb (x y : N) : nltb x y = true -> nleb y x = true -> False.
  Proof. intros H G. rewrite (ol_ltb N L) in H. rewrite G in H. rewrite andb_comm in H. discriminate. Qed.
  Lemma ltb_nan_l (x y : N) : nltb x y = true -> nisnan x = false.
  Proof. intros H. apply (ltb_true L) in H. destruct H as [H _]. apply (leb_notnan_l L) in H. exact H. Qed.

  Lemma free_weak a ref i x f : disc_minimize av a ref objs None = Ok i -> improves_on av objs a ref ->
    at_ decs i = Ok x -> at_ objs i = Ok f -> weakly_optimal objs f.
  Proof.
    intros H HI _ Hf. apply at_ok in Hf. destruct (disc_free L _ _ _ _ _ H) as (f' & v & Hf' & Hv & Hn & Hmin).
    assert (f' = f) by congruence. subst f'. split; [eapply nth_error_In; eauto|]. intros g Hg B.
    destruct (HI f g v) as (w & Hw & Hlt); auto. { eapply nth_error_In; eauto. }
    apply In_nth_error in Hg as (j & Hj). apply (ltb_not_leb _ _ Hlt). apply (Hmin j g w); auto. eapply ltb_nan_l; eauto.
  Qed.

  Lemma take_lt (f g : vec) inds f1 : strictly_better g f -> take f inds = Ok f1 -> exists g1, take g inds = Ok g1 /\ strictly_better g1 f1 /\ (forall P : N -> Prop, Forall P f -> Forall P f1) /\ (forall P : N -> Prop, Forall P g -> Forall P g1).
  Proof.
    intros B H. apply take_ok in H. induction H as [|i y inds f1 Hy H IH].
    - exists []. split; [reflexivity|]. split; [constructor|]. split; intros; constructor.
    - destruct IH as (g1 & Hg1 & B1 & F1 & F2). destruct (Forall2_nth _ _ _ _ _ B Hy) as (x & Hx & Hxy).
      exists (x :: g1). split; [|split; [constructor; auto|]].
      + apply take_ok. constructor; auto. apply take_ok. exact Hg1.
      + split; intros P HP; constructor; auto; rewrite Forall_forall in HP; apply HP; eapply nth_error_In; eauto.
  Qed.
  Lemma slack_lt (c f1 g1 : vec) : strictly_better g1 f1 -> Forall fin f1 -> Forall fin g1 ->
    forallb (fun x => nleb (nofZ 0) x) (vsub c f1) = true -> forallb (fun x => nleb (nofZ 0) x) (vsub c g1) = true.
  Proof.
    intros B. revert c. induction B as [|y x g1 f1 Hl B IH]; intros [|c cs] F1 F2 H; try reflexivity; auto.
    inversion F1; inversion F2; subst. unfold vsub in *. cbn [zipw forallb] in *. apply andb_true_iff in H as [Ha Hb]. apply andb_true_iff. split; auto.
    apply (Hslack c x y); auto.
  Qed.
  Lemma cons_row_lt (cur lv f g r : vec) a b c d : strictly_better g f -> Forall fin f -> Forall fin g -> cons_row cur lv a b c d f = Ok r ->
    forallb (fun x => nleb (nofZ 0) x) r = true -> exists r', cons_row cur lv a b c d g = Ok r' /\ forallb (fun x => nleb (nofZ 0) x) r' = true.
  Proof.
    intros B Ff Fg H. unfold cons_row in *.
    apply rbind_ok in H as (c1 & C1 & H). apply rbind_ok in H as (f1 & F1 & H).
    apply rbind_ok in H as (c2 & C2 & H). apply rbind_ok in H as (f2 & F2 & H).
    apply rbind_ok in H as (c3 & C3 & H). apply rbind_ok in H as (f3 & F3 & H).
    apply rbind_ok in H as (c4 & C4 & H). apply rbind_ok in H as (f4 & F4 & H). injection H as <-.
    destruct (take_lt _ _ _ _ B F1) as (g1 & G1 & B1 & P1 & Q1). destruct (take_lt _ _ _ _ B F2) as (g2 & G2 & B2 & P2 & Q2).
    destruct (take_lt _ _ _ _ B F3) as (g3 & G3 & B3 & P3 & Q3). destruct (take_lt _ _ _ _ B F4) as (g4 & G4 & B4 & P4 & Q4).
    rewrite C1, C2, C3, C4, G1, G2, G3, G4. cbn [rbind]. intros H. eexists. split; [reflexivity|].
    rewrite !forallb_app, !andb_true_iff in *. destruct H as (H1 & H2 & H3 & H4).
    repeat split; eapply slack_lt; eauto.
  Qed.

  Lemma cons_weak a ref cur lv i1 i2 i3 i4 i x f :
    disc_minimize av a ref objs (Some (cons_disc cur lv i1 i2 i3 i4)) = Ok i -> improves_on av objs a ref ->
    at_ decs i = Ok x -> at_ objs i = Ok f -> weakly_optimal objs f.
  Proof.
    intros H HI _ Hf. apply at_ok in Hf. pose proof HW as (K & _ & _ & W1 & W2 & W3). cbn [p p_nobj] in K.
    pose proof H as H'. unfold disc_minimize in H'. apply rbind_ok in H' as (rows & Hr & _). apply rbind_ok in Hr as (m & Hm & _).
    assert (F2 : Forall2 (fun f b => rmap (fun r => forallb (fun x => nleb (nofZ 0) x) r) (cons_row cur lv i1 i2 i3 i4 f) = Ok b) objs m)
      by (unfold cons_disc in Hm; apply rseq_map_ok in Hm; exact Hm).
    assert (HE : Forall (fun r : vec => r <> []) objs).
    { eapply Forall_impl; [|exact W1]. cbn. intros r Hr' ->. cbn in Hr'. lia. }
    assert (HL : length m = length objs) by (symmetry; eapply F2len; eauto).
    destruct (disc_cons L _ _ _ _ _ _ _ HN HE Hm HL H) as (f' & v & Hf' & Hmi & Hv & Hn & Hmin).
    assert (f' = f) by congruence. subst f'. split; [eapply nth_error_In; eauto|]. intros g Hg B.
    assert (If : In f objs) by (eapply nth_error_In; eauto).
    destruct (HI f g v) as (w & Hw & Hlt); auto.
    apply In_nth_error in Hg as (j & Hj). apply (ltb_not_leb _ _ Hlt). apply (Hmin j g w); auto; [|eapply ltb_nan_l; eauto].
    destruct (Forall2_nth _ _ _ _ _ F2 Hmi) as (f' & Ef & Hc). assert (f' = f) by congruence. subst f'.
    destruct (PNimbus.Forall2_nth_l _ _ _ _ _ F2 Hj) as (bj & Ebj & Hcj).
    apply rmap_ok in Hc as (r & Hr & E). rewrite Forall_forall in W2.
    destruct (cons_row_lt cur lv f g r i1 i2 i3 i4 B (W2 _ If) (W2 _ (nth_error_In _ _ Hj)) Hr (eq_sym E)) as (r' & Hr' & E').
    rewrite Hr' in Hcj. cbn [rmap] in Hcj. rewrite E' in Hcj. congruence.
  Qed.

  Definition wgood (q : nb_request N) : Prop := forall f, shows q f -> weakly_optimal objs f.
  Definition winv (s : nb_state N) (qs : list (nb_request N)) : Prop :=
    weakly_optimal objs (bs_obj s) /\ Forall (weakly_optimal objs) (bs_aobjs s) /\ Forall wgood qs.

  Lemma new_weak s n lv d cl q : In (bs_obj s) objs -> nb_validate p ideal nadir (QClass (bs_obj s)) d = Ok tt ->
    bd_cls d = Some cl -> bd_levels d = Some lv -> good_cls (bs_obj s) cl lv ->
    nb_new_solutions av p ideal nadir s n lv (where_cls CImprove cl) (where_cls CImproveUntil cl)
      (where_cls CAccept cl) (where_cls CImpairUntil cl) (where_cls CFree cl) = Ok q -> wgood q.
  Proof.
    intros Ho Hv Hc Hl Hg H. unfold nb_new_solutions in H. apply rbind_ok in H as (r1 & H1 & H). apply rbind_ok in H as (rs & H2 & H).
    assert (E : Forall (fun r => weakly_optimal objs (snd r)) (r1 :: rs)).
    2:{ injection H as <-. intros f Hf. change (In f (map snd (r1 :: rs))) in Hf. apply in_map_iff in Hf as (r & <- & Hr). rewrite Forall_forall in E. auto. }
    clear H. assert (A : forall a ref, asked k ideal nadir cl lv (bs_obj s) a ref -> improves_on av objs a ref) by (intros; eapply Hasked; eauto).
    constructor.
    { unfold nb_solve, p in H1. apply rbind_ok in H1 as (i & Hi & H1). apply rbind_ok in H1 as (x & Hx & H1). apply rbind_ok in H1 as (f & Hf & H1).
      injection H1 as <-. cbn [snd]. eapply cons_weak; eauto. apply A. left. split; reflexivity. }
    assert (S : forall a ref r c, nb_solve av p (bs_sol s) a ref c None = Ok r -> improves_on av objs a ref -> weakly_optimal objs (snd r)).
    { intros a ref r c H HI. unfold nb_solve, p in H. apply rbind_ok in H as (i & Hi & H). apply rbind_ok in H as (x & Hx & H). apply rbind_ok in H as (f & Hf & H).
      injection H as <-. cbn [snd]. eapply free_weak; eauto. }
    destruct (1 <? n)%Z; [|injection H2 as <-; constructor].
    apply rbind_ok in H2 as (z & Hz & H2). apply zbar_implied in Hz. cbn [p p_nobj] in Hz. apply rbind_ok in H2 as (r2 & Hr2 & H2). apply rbind_ok in H2 as (rs3 & Hr3 & H2).
    injection H2 as <-. constructor. { eapply S; eauto. apply A. right. exists 1. repeat split; auto; try apply Hz; lia. }
    destruct (2 <? n)%Z; [|injection Hr3 as <-; constructor].
    apply rbind_ok in Hr3 as (r3 & Hr3 & H3). apply rbind_ok in H3 as (rs4 & Hr4 & H3). injection H3 as <-.
    constructor. { eapply S; eauto. apply A. right. exists 2. repeat split; auto; try apply Hz; lia. }
    destruct (3 <? n)%Z; [|injection Hr4 as <-; constructor].
    apply rbind_ok in Hr4 as (r4 & Hr4 & H4). injection H4 as <-. constructor; [|constructor].
    eapply S; eauto. apply A. right. exists 3. repeat split; auto; try apply Hz; lia.
  Qed.
  Lemma inter_weak s sols os d q : wgood (QInter sols os) -> nb_handle_inter av p ideal nadir s sols os d = Ok q -> wgood q.
  Proof.
    intros G H. unfold nb_handle_inter in H. apply rbind_ok in H as (ix & _ & H). destruct (Nat.ltb 0 (length ix)).
    - apply rbind_ok in H as (sel & _ & H). apply rbind_ok in H as (nv & _ & H). apply rbind_ok in H as (n & _ & H).
      unfold nb_intermediate in H. apply rbind_ok in H as (s0 & _ & H). apply rbind_ok in H as (s1 & _ & H).
      apply rbind_ok in H as (pts & _ & H). apply rbind_ok in H as (rs & Hrs & H).
      assert (E : Forall (fun r => weakly_optimal objs (snd r)) rs).
      2:{ injection H as <-. intros f Hf. change (In f (map snd rs)) in Hf. apply in_map_iff in Hf as (r & <- & Hr). rewrite Forall_forall in E. auto. }
      apply rseq_map_ok in Hrs. clear H. induction Hrs as [|pt r pts rs Hr Hrs IH]; constructor; auto.
      unfold p in Hr. apply rbind_ok in Hr as (rf & Hrf & Hr). apply rbind_ok in Hr as (i & Hi & Hr). apply rbind_ok in Hr as (x & Hx & Hr). apply rbind_ok in Hr as (f & Hf & Hr).
      injection Hr as <-. cbn [snd]. apply at_ok in Hrf. eapply free_weak; eauto. apply Hpoint. eapply nth_error_In; eauto.
    - injection H as <-. exact G.
  Qed.

  Lemma others_in {A} (m : list A) ix a : forall i, In a (others_from i m ix) -> In a m.
  Proof. induction m as [|b m IH]; intros i H; cbn [others_from] in H; [destruct H|]. destruct (existsb _ ix); [right; eauto|]. destruct H as [->|H]; [left; auto|right; eauto]. Qed.
  Lemma rows_at_in {A} (m : list A) ix r a : rows_at m ix r -> In a r -> In a m.
  Proof. induction 1 as [|z b ix r [_ H] _ IH]; intros Hi; [destruct Hi|]. destruct Hi as [->|Hi]; [eapply nth_error_In; eauto|auto]. Qed.

  Lemma winv_step s qs q resp s' out : inv p s qs -> winv s qs -> In q qs ->
    (forall d, resp = Some d -> nb_validate p ideal nadir q d = Ok tt) ->
    (forall f d cl lv, q = QClass f -> resp = Some d -> bd_cls d = Some cl -> bd_levels d = Some lv -> good_cls (bs_obj s) cl lv) ->
    nb_iterate av p ideal nadir q resp s = (s', out) ->
    winv s' (match out with Ok q' => q' :: qs | Raise _ => qs end).
  Proof.
    intros (J1 & J2 & J3) (I1 & I2 & I3) Hin HV HC H.
    assert (Hg : good p q) by (rewrite Forall_forall in J3; auto).
    assert (Hw : wgood q) by (rewrite Forall_forall in I3; auto).
    assert (Same : forall e, s' = s -> out = Raise e -> winv s' (match out with Ok q' => q' :: qs | Raise _ => qs end)).
    { intros e -> ->. repeat split; auto; apply I1. }
    destruct (bs_phase s) eqn:Ep.
    - destruct q as [f| | | |]; try (rewrite iter_wrong in H by (rewrite Ep; (discriminate || intros [])); injection H as <- <-; eapply Same; reflexivity).
      apply iter_cls in H; auto. destruct H as [(e & E1 & E2)|(d & q & -> & Hh & -> & ->)]; [eapply Same; eauto|].
      split; [exact I1|]. split; [exact I2|]. constructor; auto. unfold nb_handle_cls in Hh.
      apply rbind_ok in Hh as (cl & Hcl & Hh). apply rbind_ok in Hh as (nv & _ & Hh). apply rbind_ok in Hh as (n & _ & Hh). apply rbind_ok in Hh as (lv & Hlv & Hh).
      assert (bd_cls d = Some cl) by (destruct (bd_cls d); cbn [key] in Hcl; congruence).
      assert (bd_levels d = Some lv) by (destruct (bd_levels d); cbn [key] in Hlv; congruence).
      eapply (new_weak s n lv d cl q); eauto. apply I1.
    - destruct q as [|sols os| | |]; try (rewrite iter_wrong in H by (rewrite Ep; (discriminate || intros [])); injection H as <- <-; eapply Same; reflexivity).
      apply iter_save in H; auto. destruct H as [(_ & E1 & E2)|(d & ix & fs & fo & -> & Hix & Rs & Ro & -> & ->)]; [eapply Same; eauto|].
      assert (A : Forall (weakly_optimal objs) (bs_aobjs s ++ fo)).
      { apply Forall_app. split; auto. apply Forall_forall. intros f Hf. apply Hw. cbn. eapply rows_at_in; eauto. }
      split; [exact I1|]. split; [exact A|]. constructor; auto. intros f Hf. cbn in Hf. apply in_app_or in Hf as [Hf|Hf].
      + rewrite Forall_forall in A. auto.
      + apply Hw. cbn. eapply others_in; eauto.
    - destruct q as [| |sols os| |]; try (rewrite iter_wrong in H by (rewrite Ep; (discriminate || intros [])); injection H as <- <-; eapply Same; reflexivity).
      apply iter_inter in H; auto. destruct H as [(e & E1 & E2 & _)|(d & q & -> & Hh & -> & Hq)]; [eapply Same; eauto|].
      assert (wgood q) by (eapply inter_weak; eauto).
      destruct Hq as [(s1 & o1 & -> & G & ->)|(-> & ->)]; (split; [exact I1|]; split; [exact I2|constructor; auto]).
    - destruct q as [| | |sols os|]; try (rewrite iter_wrong in H by (rewrite Ep; (discriminate || intros [])); injection H as <- <-; eapply Same; reflexivity).
      apply iter_pref in H; auto. destruct H as [(_ & E1 & E2)|(d & z & b & x & f & -> & Hz & Hb & Hp & Ex & Ef & -> & ->)]; [eapply Same; eauto|].
      assert (M : weakly_optimal objs f) by (apply Hw; cbn; eapply nth_error_In; eauto).
      split; [exact M|]. split; [exact I2|]. constructor; auto. destruct b; intros g Hg'; cbn in Hg'; subst g; exact M.
    - rewrite iter_end in H by auto. injection H as <- <-. split; [exact I1|]. split; [exact I2|constructor; auto].
  Qed.

  Lemma winv_init start x0 s0 : improves_on av objs (APoint nadir ideal) (start_ref start ideal nadir) -> nb_init av p ideal nadir start x0 = Ok s0 -> winv s0 [nb_start s0].
  Proof.
    intros HS. unfold nb_init, vadd. rewrite map_zipw. change (match start with Some v => v | None => _ end) with (start_ref start ideal nadir). destruct (negb (nb_start_ok start ideal)); [discriminate|]. unfold p. intros H.
    apply rbind_ok in H as (i & Hi & H). apply rbind_ok in H as (x & Hx & H). apply rbind_ok in H as (f & Hf & H). injection H as <-.
    assert (M : weakly_optimal objs f) by (eapply free_weak; eauto).
    split; [exact M|]. split; [constructor|]. constructor; [|constructor]. intros g Hg. cbn in Hg. subst. exact M.
  Qed.
  Lemma reach_if_reach s0 s qs : nb_reach_if good_cls av p ideal nadir s0 s qs -> nb_reach av p ideal nadir s0 s qs.
  Proof. induction 1; [constructor|]. eapply nb_reach_step; eauto. Qed.
  Lemma winv_reach start x0 s0 s qs : improves_on av objs (APoint nadir ideal) (start_ref start ideal nadir) -> nb_init av p ideal nadir start x0 = Ok s0 ->
    nb_reach_if good_cls av p ideal nadir s0 s qs -> winv s qs.
  Proof.
    intros HS H0. induction 1 as [|s qs q resp s' out HR IH Hin HV HC H].
    - eapply winv_init; eauto.
    - eapply winv_step; eauto. apply reach_if_reach in HR. eapply inv_reach; eauto.
  Qed.
End Weak.
