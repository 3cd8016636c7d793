(** * NAUTILUS Navigator: bounds, nesting, projection, two objectives. *)
From Coq Require Import ZArith List Bool Lia.
From Verif Require Import Num Py Np Spec NpFacts MNavigator SNavigator PENautilus PNavigator PNavigator2 PNavigator3.
Import ListNotations.

Section Nav.
  Context {N : NumOps} (L : OrdLaws N).
  Notation vec := (list N).
  Notation mat := (list (list N)).
  Implicit Types (asf : @asf_fn N) (s : nv_state N) (d : nv_dict N) (c : nv_content N) (q : nv_request N)
    (front : list (list N)).

  Lemma any_gt_iff (row bounds : vec) : any_gt row bounds = true <-> exceeds row bounds.
  Proof. unfold any_gt. rewrite existsb_id_zipw. reflexivity. Qed.
  Lemma any_gt_false (row bounds : vec) : any_gt row bounds = false <-> ~ exceeds row bounds.
  Proof. rewrite <- any_gt_iff. destruct (any_gt row bounds); split; intros; try congruence; exfalso; auto. Qed.

  Lemma nan_row_not_considered (row nav : vec) r : length row = length nav -> 2 <= length row -> r < length row ->
    all_le (drop_at r (nan_row row)) (drop_at r nav) = false.
  Proof.
    intros HL H2 Hr. destruct (all_le _ _) eqn:E; auto. exfalso.
    pose proof (proj1 (all_le_drop_iff (N:=N) r (nan_row row) nav ltac:(rewrite nan_row_length; auto) ltac:(rewrite nan_row_length; auto)) E) as E'.
    clear E. rename E' into E.
    set (i := if Nat.eqb r 0 then 1 else 0).
    assert (Hi : i <> r /\ i < length row) by (unfold i; destruct (Nat.eqb_spec r 0); lia).
    destruct (nth_error row i) as [x|] eqn:Ex; [|apply nth_error_None in Ex; lia].
    destruct (nth_error nav i) as [y|] eqn:Ey; [|apply nth_error_None in Ey; lia].
    specialize (E i nnan y (proj1 Hi)). unfold nan_row in E. rewrite nth_error_map, Ex in E. specialize (E eq_refl Ey).
    rewrite (ol_nan_l N L _ _ (ol_nan N L)) in E. discriminate.
  Qed.

  Lemma nv_cell_In k rows nav bounds bm r x :
    2 <= k -> is_matrix k rows -> length nav = k -> length bounds = k -> r < k ->
    rseq (map (fun row => bany (fun x y => nltb y x) row bounds) rows) = Ok bm ->
    (In x (nv_cell (nan_rows bm rows) nav r) <-> exists row, considered (N:=N) rows nav bounds r row /\ nth_error row r = Some x).
  Proof.
    intros H2 Hm Hn Hb Hr Hbm. apply rseq_map_ok in Hbm. unfold is_matrix in Hm. rewrite Forall_forall in Hm.
    unfold nv_cell. rewrite in_map_iff. split.
    - intros (row' & Hx & Hin). apply filter_In in Hin. destruct Hin as [Hin Hle].
      apply In_nth_error in Hin. destruct Hin as [i Hi]. rewrite nan_rows_nth in Hi.
      destruct (nth_error bm i) as [b|] eqn:Eb; [|discriminate].
      destruct (nth_error rows i) as [row|] eqn:Er; [|discriminate]. injection Hi as <-.
      assert (Hlr : length row = k) by (apply Hm; eapply nth_error_In; eauto).
      destruct (Forall2_nth_l _ _ _ _ _ Hbm Er) as [b' [Eb' Hbe]]. assert (b' = b) by congruence. subst b'.
      rewrite bany_gt_eq in Hbe by congruence. injection Hbe as Hbe.
      destruct b; [rewrite nan_row_not_considered in Hle by lia; discriminate|].
      exists row. split.
      + split; [eapply nth_error_In; eauto|]. split; [apply any_gt_false; auto|].
        intros j u v Hj Hu Hv. eapply (proj1 (all_le_drop_iff (N:=N) r row nav ltac:(lia) ltac:(lia)) Hle); eauto.
      + destruct (nth_error row r) eqn:Ex; [|apply nth_error_None in Ex; lia].
        rewrite (nth_error_nth _ _ _ Ex) in Hx. congruence.
    - intros (row & (Hin & Hne & Hle) & Hx). apply In_nth_error in Hin. destruct Hin as [i Hi].
      assert (Hlr : length row = k) by (apply Hm; eapply nth_error_In; eauto).
      destruct (Forall2_nth_l _ _ _ _ _ Hbm Hi) as [b [Eb Hbe]]. rewrite bany_gt_eq in Hbe by congruence. injection Hbe as Hbe.
      assert (b = false) by (subst b; apply any_gt_false; auto). clear Hbe. subst b.
      exists row. split; [apply nth_error_nth; auto|]. apply filter_In. split.
      + apply (nth_error_In _ i). rewrite nan_rows_nth, Eb, Hi. reflexivity.
      + exact (proj2 (all_le_drop_iff (N:=N) r row nav ltac:(lia) ltac:(lia)) Hle).
  Qed.

  Lemma bounds_spec_are k front rows nav bounds plb pub lb ub :
    2 <= k -> is_matrix k rows -> nan_free_m rows -> length bounds = k ->
    bounds_spec front rows k nav bounds plb pub lb ub -> bounds_are rows nav bounds plb pub lb ub.
  Proof.
    intros H2 Hm Hf Hb H. pose proof (bounds_spec_len _ _ _ _ _ _ _ _ _ H) as (Hl & Hu & Hn).
    destruct H as (_ & bm & bs & Hbm & Hbs & -> & ->).
    split; [congruence|]. split; [congruence|]. intros r lo hi Hlo Hhi.
    assert (Hr : r < k) by (rewrite <- Hl; apply nth_error_Some; congruence).
    apply rseq_map_ok in Hbs. rewrite nth_error_map in Hlo, Hhi.
    destruct (nth_error bs r) as [[lo' hi']|] eqn:Ebs; [|discriminate]. cbn in Hlo, Hhi. injection Hlo as ->. injection Hhi as ->.
    destruct (Forall2_nth_r _ _ _ _ _ Hbs Ebs) as [r' [Hr' Hb1]]. rewrite nth_seq in Hr' by auto. injection Hr' as <-.
    pose proof (fun x => nv_cell_In k rows nav bounds bm r x H2 Hm Hn Hb Hr Hbm) as Hcell.
    unfold nv_bound1 in Hb1.
    assert (Hent : forall row, considered rows nav bounds r row -> exists x, nth_error row r = Some x /\ nisnan x = false).
    { intros row (Hin & _). unfold is_matrix in Hm. rewrite Forall_forall in Hm. pose proof (Hm _ Hin) as Hlr.
      destruct (nth_error row r) as [x|] eqn:Ex; [|apply nth_error_None in Ex; lia]. exists x. split; auto.
      unfold nan_free_m in Hf. rewrite Forall_forall in Hf. specialize (Hf _ Hin). unfold nan_free in Hf. rewrite Forall_forall in Hf.
      apply Hf. eapply nth_error_In; eauto. }
    destruct (nv_cell (nan_rows bm rows) nav r) as [|x0 cl] eqn:Ec.
    - left. split.
      + intros row Hc. destruct (Hent row Hc) as [x [Hx _]]. apply (proj2 (Hcell x)). eauto.
      + apply rbind_ok in Hb1. destruct Hb1 as (l1 & H3 & Hb1). apply rbind_ok in Hb1. destruct Hb1 as (u1 & H4 & Hb1).
        injection Hb1 as <- <-. apply at_ok in H3. apply at_ok in H4. auto.
    - right. apply rbind_ok in Hb1. destruct Hb1 as (l1 & H3 & Hb1). apply rbind_ok in Hb1. destruct Hb1 as (u1 & H4 & Hb1).
      injection Hb1 as <- <-.
      assert (Hnn : forall x, In x (x0 :: cl) -> nisnan x = false).
      { intros x Hx. apply Hcell in Hx. destruct Hx as (row & Hc & Hx). destruct (Hent row Hc) as [x' [Hx' Hnn]]. congruence. }
      assert (Hin0 : In x0 (x0 :: cl)) by (left; auto).
      apply (npnanmin_cases L) in H3. apply (npnanmax_cases L) in H4.
      destruct H3 as [(H3 & _ & H3')|[_ H3]]; [|specialize (H3 x0 Hin0); rewrite (Hnn x0 Hin0) in H3; discriminate].
      destruct H4 as [(H4 & _ & H4')|[_ H4]]; [|specialize (H4 x0 Hin0); rewrite (Hnn x0 Hin0) in H4; discriminate].
      split; [apply Hcell in H3; auto|]. split; [apply Hcell in H4; auto|].
      intros row x Hc Hx. assert (Hi : In x (x0 :: cl)) by (apply Hcell; eauto). split; [apply H3'|apply H4']; auto.
  Qed.

  Lemma in_box_nan_free (row lb ub : vec) : in_box row lb ub -> nan_free row.
  Proof.
    intros [H _]. unfold vle in H. apply Forall_forall. intros x Hx. destruct (Forall2_In_r _ _ _ _ H Hx) as [y [_ Hy]].
    eapply leb_notnan_r; eauto.
  Qed.

  (** New bounds lie within the old ones. *)
  Lemma bounds_are_nested rows nav bounds (plb pub lb ub : vec) :
    bounds_are rows nav bounds plb pub lb ub -> length plb = length nav -> length pub = length nav ->
    nan_free plb -> nan_free pub -> Forall (fun row => in_box row plb pub) rows ->
    vle plb lb /\ vle ub pub.
  Proof.
    intros (Hl & Hu & H) Hpl Hpu Fl Fu Hbox. rewrite Forall_forall in Hbox.
    assert (Hgen : forall r, r < length nav -> exists lo hi plo phi, nth_error lb r = Some lo /\ nth_error ub r = Some hi /\
       nth_error plb r = Some plo /\ nth_error pub r = Some phi /\ nleb plo lo = true /\ nleb hi phi = true).
    { intros r Hr. destruct (nth_error lb r) as [lo|] eqn:E1; [|apply nth_error_None in E1; lia].
      destruct (nth_error ub r) as [hi|] eqn:E2; [|apply nth_error_None in E2; lia].
      destruct (nth_error plb r) as [plo|] eqn:E3; [|apply nth_error_None in E3; lia].
      destruct (nth_error pub r) as [phi|] eqn:E4; [|apply nth_error_None in E4; lia].
      exists lo, hi, plo, phi. repeat split; auto; unfold nan_free in *; rewrite Forall_forall in *.
      - destruct (H r lo hi E1 E2) as [(_ & A & B)|((row & (Hin & _) & Hrow) & _)].
        + assert (lo = plo) by congruence. subst. apply (ol_refl N L). apply Fl. eapply nth_error_In; eauto.
        + destruct (Hbox _ Hin) as [Hlo _]. apply vle_nth in Hlo. eapply Hlo; eauto.
      - destruct (H r lo hi E1 E2) as [(_ & A & B)|(_ & (row & (Hin & _) & Hrow) & _)].
        + assert (hi = phi) by congruence. subst. apply (ol_refl N L). apply Fu. eapply nth_error_In; eauto.
        + destruct (Hbox _ Hin) as [_ Hhi]. apply vle_nth in Hhi. eapply Hhi; eauto. }
    split; apply vle_nth; (split; [congruence|]); intros r x y Hx Hy.
    - assert (Hr : r < length nav) by (rewrite <- Hpl; apply nth_error_Some; congruence).
      destruct (Hgen r Hr) as (lo & hi & plo & phi & E1 & E2 & E3 & E4 & A & B). congruence.
    - assert (Hr : r < length nav) by (rewrite <- Hu; apply nth_error_Some; congruence).
      destruct (Hgen r Hr) as (lo & hi & plo & phi & E1 & E2 & E3 & E4 & A & B). congruence.
  Qed.

  (** Reachable rows of a state whose index set is the box filter. *)
  Definition boxed front (lb ub : vec) (idx : idxarr) : Prop :=
    idx_list idx = box_idx front lb ub /\ nan_free lb /\ nan_free ub.

  Lemma boxed_rows k front lb ub idx rows : is_matrix k front -> boxed front lb ub idx -> take front (idx_list idx) = Ok rows ->
    is_matrix k rows /\ Forall (fun row => in_box row lb ub) rows /\
    (forall row, In row rows <-> In row front /\ in_box row lb ub).
  Proof.
    intros Hm (Hi & _ & _) H. apply take_ok in H.
    assert (Hx : forall row, In row rows <-> In row front /\ in_box row lb ub).
    { intros row. split.
      - intros Hr. destruct (Forall2_In_r _ _ _ _ H Hr) as [i [Hin Hn]]. rewrite Hi in Hin. apply box_idx_spec in Hin.
        destruct Hin as [row' [Hn' Hb]]. assert (row' = row) by congruence. subst. split; auto. eapply nth_error_In; eauto.
      - intros [Hin Hb]. apply In_nth_error in Hin. destruct Hin as [i Hn].
        assert (Hii : In i (idx_list idx)) by (rewrite Hi; apply box_idx_spec; eauto).
        destruct (Forall2_In_l _ _ _ _ H Hii) as [row' [Hr' Hn']]. congruence. }
    split; [|split; auto].
    - unfold is_matrix in *. rewrite Forall_forall in *. intros row Hr. apply Hx in Hr. apply Hm. tauto.
    - apply Forall_forall. intros row Hr. apply Hx in Hr. tauto.
  Qed.

  Lemma vle_nan_free_l (a b : vec) : vle a b -> nan_free a.
  Proof. intros H. apply Forall_forall. intros x Hx. destruct (Forall2_In_l _ _ _ _ H Hx) as [y [_ Hy]]. eapply leb_notnan_l; eauto. Qed.
  Lemma vle_nan_free_r (a b : vec) : vle a b -> nan_free b.
  Proof. intros H. apply Forall_forall. intros x Hx. destruct (Forall2_In_r _ _ _ _ H Hx) as [y [_ Hy]]. eapply leb_notnan_r; eauto. Qed.

  Lemma in_box_mono (row lb ub lb' ub' : vec) : vle lb lb' -> vle ub' ub -> in_box row lb' ub' -> in_box row lb ub.
  Proof. intros H1 H2 [H3 H4]. split; eapply (vle_trans L); eauto. Qed.

  Lemma forward_nested k asf s ref speed bounds s' q :
    2 <= k -> wf k s -> length bounds = k -> boxed (ns_front s) (ns_lb s) (ns_ub s) (ns_idx s) ->
    forward_spec asf s ref speed bounds s' q ->
    vle (ns_lb s) (ns_lb s') /\ vle (ns_ub s') (ns_ub s) /\ incl (idx_list (ns_idx s')) (idx_list (ns_idx s)) /\
    boxed (ns_front s') (ns_lb s') (ns_ub s') (ns_idx s') /\
    exists rows, take (ns_front s) (idx_list (ns_idx s)) = Ok rows /\
      bounds_are rows (ns_nav s') bounds (ns_lb s) (ns_ub s) (ns_lb s') (ns_ub s').
  Proof.
    intros H2 W Hb B (again & pi & proj & nav & rows & lb & ub & dist & idx & Hr & Hp & Hpr & Hnav & Hrows & Hbs & Hd & Hi & -> & _).
    rewrite (wf_nadir _ _ W) in Hbs. destruct (bounds_spec_len _ _ _ _ _ _ _ _ _ Hbs) as (Hl & Hu & Hn).
    rewrite (nv_reachable_eq k) in Hi by (auto; apply (wf_front _ _ W)). injection Hi as <-.
    destruct (boxed_rows k _ _ _ _ _ (wf_front _ _ W) B Hrows) as (Hmr & Hbr & _).
    assert (Hfr : nan_free_m rows).
    { apply Forall_forall. intros row Hrow. rewrite Forall_forall in Hbr. eapply in_box_nan_free; eauto. }
    pose proof (bounds_spec_are _ _ _ _ _ _ _ _ _ H2 Hmr Hfr Hb Hbs) as Hba.
    pose proof (bounds_are_nested _ _ _ _ _ _ _ Hba) as Hne.
    rewrite Hn, (wf_lb _ _ W), (wf_ub _ _ W) in Hne. destruct B as (B1 & B2 & B3).
    destruct (Hne eq_refl eq_refl B2 B3 Hbr) as [V1 V2]. cbn.
    split; auto. split; auto. split; [|split].
    - rewrite idx_list_squeeze, B1. intros i Hi. apply box_idx_spec in Hi. apply box_idx_spec.
      destruct Hi as (row & Hrow & Hin). exists row. split; auto. eapply in_box_mono; eauto.
    - split; [apply idx_list_squeeze|]. split; [eapply vle_nan_free_r; eauto|eapply vle_nan_free_l; eauto].
    - exists rows. auto.
  Qed.

  Lemma boxed_init front ideal nadir : enclosed front ideal nadir -> boxed front ideal nadir (IList (seq 0 (length front))).
  Proof.
    intros (H & H1 & H2). split; [|auto]. cbn. unfold box_idx.
    rewrite Forall_forall in H.
    assert (E : forall l, (forall i, In i l -> i < length front) ->
      l = filter (fun i => match nth_error front i with Some row => vleb ideal row && vleb row nadir | None => false end) l).
    { induction l as [|i l IH]; intros Hlt; simpl; auto.
      destruct (nth_error front i) as [row|] eqn:Er; [|apply nth_error_None in Er; specialize (Hlt i (or_introl eq_refl)); lia].
      destruct (H row) as [Ha Hb]; [eapply nth_error_In; eauto|]. apply vleb_iff in Ha. apply vleb_iff in Hb. rewrite Ha, Hb. simpl.
      f_equal. apply IH. intros j Hj. apply Hlt. right; auto. }
    apply E. intros i Hi. apply in_seq in Hi. lia.
  Qed.

  Lemma boxed_reach k asf front ideal nadir vars s qs :
    2 <= k -> setup k front ideal nadir vars -> enclosed front ideal nadir ->
    nv_reach asf front ideal nadir vars s qs ->
    boxed front (ns_lb s) (ns_ub s) (ns_idx s) /\ (forall c, In (NReq c) qs -> boxed front (nc_lb c) (nc_ub c) (nc_idx c)).
  Proof.
    intros H2 Hs He. induction 1 as [|s qs c d s' out Hr IH Hin Hv Hit].
    - pose proof (boxed_init _ _ _ He). split; auto. intros c [E|[]]. injection E as <-. auto.
    - pose proof (reach_outcome L _ _ _ _ _ _ _ _ _ _ _ _ Hs Hr Hin Hv Hit) as Ho.
      pose proof (ginv_reach L _ _ _ _ _ _ _ _ Hs Hr) as G. destruct IH as [IH1 IH2].
      destruct Ho; subst out.
      + subst s'. split; auto. intros c' [E|Hc']; [discriminate|auto].
      + subst s'. cbn. split; auto. intros c' [E|Hc']; auto. injection E as <-. cbn. auto.
      + rewrite <- (g_front _ _ _ _ _ _ _ G) in *.
        destruct (forward_nested k asf s ref speed (to_floats ub) s' _ H2 (g_wf _ _ _ _ _ _ _ G) H5 IH1 H6) as (_ & _ & _ & B & _).
        pose proof (forward_spec_const _ _ _ _ _ _ _ H6) as (E1 & _). rewrite E1 in B.
        split; auto. intros c' [E|Hc']; auto. injection E as <-. cbn. auto.
      + subst s'. destruct (ns_step s =? 1)%Z; cbn; auto.
  Qed.

  (** ** Projection *)
  Lemma adm_b_iff front idx bounds i row : nth_error front i = Some row ->
    (adm_b idx bounds i row = true <-> admissible front idx bounds i).
  Proof.
    intros H. unfold adm_b, admissible. rewrite andb_true_iff, negb_true_iff, any_gt_false, existsb_exists. split.
    - intros [(j & Hj & Hij) Hne]. apply Nat.eqb_eq in Hij. subst j. eauto.
    - intros [Hin (row' & Hr' & Hne)]. assert (row' = row) by congruence. subst. split; auto. exists i. split; auto. apply Nat.eqb_refl.
  Qed.

  Lemma projection_best k asf s ref pi : wf k s -> proper_asf asf (ns_front s) (ns_ideal s) (ns_nadir s) ref ->
    projection asf s ref pi -> best_projection asf (ns_front s) (ns_ideal s) (ns_nadir s) ref (ns_idx s) (ns_bounds s) pi.
  Proof.
    intros W [P1 P2] (bm & Hbm & H).
    destruct (masked_spec k (ns_front s) (ns_idx s) (ns_bounds s) (wf_front _ _ W) (wf_bounds _ _ W)) as (bm' & Hbm' & Hml & Hn).
    assert (bm' = bm) by (unfold admissible_mask in *; congruence). subst bm'.
    apply (npnanargmin_ok L) in H. destruct H as (x & Hx & Hxn & Hmin).
    rewrite nth_error_map in Hx. destruct (nth_error (masked (ns_front s) (ns_idx s) bm) pi) as [mrow|] eqn:Em; [|discriminate].
    cbn in Hx. injection Hx as Hx.
    assert (Hlt : pi < length (ns_front s)) by (rewrite <- Hml; apply nth_error_Some; congruence).
    destruct (nth_error (ns_front s) pi) as [row|] eqn:Er; [|apply nth_error_None in Er; lia].
    rewrite (Hn pi row Er) in Em. injection Em as Em.
    destruct (adm_b (ns_idx s) (ns_bounds s) pi row) eqn:Ea.
    2:{ subst mrow x. unfold nan_row in Hxn. rewrite P1 in Hxn; [discriminate|]. eapply nth_error_In; eauto. }
    subst mrow x. split; [apply (adm_b_iff _ _ _ _ _ Er); auto|]. exists row. split; auto.
    intros j row' Hj Hrow'. apply (adm_b_iff _ _ _ _ _ Hrow') in Hj.
    apply Hmin. { rewrite nth_error_map, (Hn j row' Hrow'), Hj. reflexivity. }
    apply P2. eapply nth_error_In; eauto.
  Qed.

  Lemma projection_none k asf s ref bm : wf k s -> proper_asf asf (ns_front s) (ns_ideal s) (ns_nadir s) ref ->
    admissible_mask (ns_front s) (ns_idx s) (ns_bounds s) bm ->
    (npnanargmin (map (fun row => asf (ns_nadir s) (ns_ideal s) row ref) (masked (ns_front s) (ns_idx s) bm)) = Raise ValueErr <->
     forall i, ~ admissible (ns_front s) (ns_idx s) (ns_bounds s) i).
  Proof.
    intros W [P1 P2] Hbm.
    destruct (masked_spec k (ns_front s) (ns_idx s) (ns_bounds s) (wf_front _ _ W) (wf_bounds _ _ W)) as (bm' & Hbm' & Hml & Hn).
    assert (bm' = bm) by (unfold admissible_mask in *; congruence). subst bm'.
    transitivity (Forall (fun y : N => nisnan y = true) (map (fun row => asf (ns_nadir s) (ns_ideal s) row ref) (masked (ns_front s) (ns_idx s) bm))).
    - rewrite <- (npnanargmin_raise L). split; [eauto|]. intros [e He]. rewrite He. f_equal. eapply npnanargmin_err; eauto.
    - rewrite Forall_forall. split.
      + intros H i Hi. pose proof Hi as [_ (row & Hrow & _)]. apply (adm_b_iff _ _ _ _ _ Hrow) in Hi.
        specialize (H (asf (ns_nadir s) (ns_ideal s) row ref)). rewrite P2 in H by (eapply nth_error_In; eauto).
        discriminate H. apply (nth_error_In _ i). rewrite nth_error_map, (Hn i row Hrow), Hi. reflexivity.
      + intros H y Hy. apply In_nth_error in Hy. destruct Hy as [i Hi]. rewrite nth_error_map in Hi.
        destruct (nth_error (masked (ns_front s) (ns_idx s) bm) i) as [mrow|] eqn:Em; [|discriminate]. injection Hi as <-.
        assert (Hlt : i < length (ns_front s)) by (rewrite <- Hml; apply nth_error_Some; congruence).
        destruct (nth_error (ns_front s) i) as [row|] eqn:Er; [|apply nth_error_None in Er; lia].
        rewrite (Hn i row Er) in Em. injection Em as <-.
        destruct (adm_b (ns_idx s) (ns_bounds s) i row) eqn:Ea.
        * exfalso. apply (H i). apply (adm_b_iff _ _ _ _ _ Er). auto.
        * apply P1. eapply nth_error_In; eauto.
  Qed.

  (** ** Two objectives *)
  Lemma two_box front rows (nav bounds plb pub lb ub : vec) :
    is_matrix 2 front -> mutually_nondominated front ->
    Forall (fun row => in_box row plb pub) rows -> (forall row, In row rows <-> In row front /\ in_box row plb pub) ->
    nan_free nav -> length nav = 2 -> length plb = 2 -> length pub = 2 -> length bounds = 2 -> nan_free plb -> nan_free pub ->
    bounds_are rows nav bounds plb pub lb ub ->
    (exists row, In row rows /\ ~ exceeds row bounds /\ vle row nav) ->
    forall row, In row front -> (in_box row lb ub <-> In row rows /\ ~ exceeds row bounds /\ vle row nav).
  Proof.
    intros Hm Hnd Hbx Hrows Fn Hn Hpl Hpu Hbl Fpl Fpu Hba (w & Hw & Hwe & Hwn) row Hrow.
    pose proof (bounds_are_nested _ _ _ _ _ _ _ Hba) as Hne. rewrite Hn in Hne. specialize (Hne Hpl Hpu Fpl Fpu Hbx). destruct Hne as [V1 V2].
    destruct Hba as (Hl & Hu & Hba). rewrite Hn in Hl, Hu.
    assert (Hcons : forall row r, In row rows -> ~ exceeds row bounds -> vle row nav -> considered rows nav bounds r row).
    { intros rw r A B C. split; auto. split; auto. intros i x y _ Hx Hy. apply vle_nth in C. eapply C; eauto. }
    assert (Hlen : forall rw, In rw front -> length rw = 2) by (unfold is_matrix in Hm; rewrite Forall_forall in Hm; auto).
    assert (Hsp : forall r lo hi, nth_error lb r = Some lo -> nth_error ub r = Some hi ->
       (exists row, considered rows nav bounds r row /\ nth_error row r = Some lo) /\
       (exists row, considered rows nav bounds r row /\ nth_error row r = Some hi) /\
       (forall row x, considered rows nav bounds r row -> nth_error row r = Some x -> nleb lo x = true /\ nleb x hi = true)).
    { intros r lo hi A B. destruct (Hba r lo hi A B) as [[C _]|C]; auto. exfalso. apply (C w). auto. }
    split.
    - intros Hin. pose proof (in_box_mono _ _ _ _ _ V1 V2 Hin) as Hin0.
      assert (Hr : In row rows) by (apply Hrows; auto). split; auto.
      pose proof (in_box_nan_free _ _ _ Hin) as Frow.
      destruct Hin as [Hlo Hhi]. pose proof (Hlen _ Hrow) as Hlr.
      destruct row as [|x0 [|x1 [|? ?]]]; try discriminate.
      destruct nav as [|z0 [|z1 [|? ?]]]; try discriminate.
      destruct lb as [|l0 [|l1 [|? ?]]]; try discriminate.
      destruct ub as [|u0 [|u1 [|? ?]]]; try discriminate.
      destruct bounds as [|b0 [|b1 [|? ?]]]; try discriminate.
      inversion Hlo as [|? ? ? ? A0 A1']; subst. inversion A1' as [|? ? ? ? A1 _]; subst.
      inversion Hhi as [|? ? ? ? B0 B1']; subst. inversion B1' as [|? ? ? ? B1 _]; subst.
      inversion Frow as [|? ? Fx0 F']; subst. inversion F' as [|? ? Fx1 _]; subst.
      inversion Fn as [|? ? Fz0 F'']; subst. inversion F'' as [|? ? Fz1 _]; subst.
      destruct (Hsp 0 l0 u0 eq_refl eq_refl) as ((c0 & (C0 & D0 & E0) & G0) & (h0 & (Ch0 & Dh0 & Eh0) & Gh0) & _).
      destruct (Hsp 1 l1 u1 eq_refl eq_refl) as ((c1 & (C1 & D1 & E1) & G1) & (h1 & (Ch1 & Dh1 & Eh1) & Gh1) & _).
      assert (Hc0f : In c0 front) by (apply Hrows in C0; tauto). assert (Hc1f : In c1 front) by (apply Hrows in C1; tauto).
      split.
      { intros (r & x & b & Hx & Hb & Hlt). destruct r as [|[|r]]; cbn in Hx, Hb; try (destruct r; discriminate).
        - injection Hx as <-. injection Hb as <-. apply Dh0. exists 0, u0, b0. repeat split; auto. eapply (ltb_le_trans L); eauto.
        - injection Hx as <-. injection Hb as <-. apply Dh1. exists 1, u1, b1. repeat split; auto. eapply (ltb_le_trans L); eauto. }
      constructor; [|constructor; [|constructor]].
      + destruct (nleb x0 z0) eqn:E; auto. exfalso.
        pose proof (Hlen _ Hc1f) as Hlc. destruct c1 as [|y0 [|y1 [|? ?]]]; try discriminate. cbn in G1. injection G1 as ->.
        assert (Hy : nleb y0 z0 = true) by (apply (E1 0); auto).
        assert (Hlt : nltb y0 x0 = true) by (eapply (le_ltb_trans L); [exact Hy|apply (leb_false_notnan L); auto]).
        apply (ltb_true L) in Hlt. destruct Hlt as [Hlt1 Hlt2].
        apply (Hnd _ _ Hc1f Hrow). split; [repeat constructor; auto|]. intros Hrev. inversion Hrev; subst. congruence.
      + destruct (nleb x1 z1) eqn:E; auto. exfalso.
        pose proof (Hlen _ Hc0f) as Hlc. destruct c0 as [|y0 [|y1 [|? ?]]]; try discriminate. cbn in G0. injection G0 as ->.
        assert (Hy : nleb y1 z1 = true) by (apply (E0 1); auto).
        assert (Hlt : nltb y1 x1 = true) by (eapply (le_ltb_trans L); [exact Hy|apply (leb_false_notnan L); auto]).
        apply (ltb_true L) in Hlt. destruct Hlt as [Hlt1 Hlt2].
        apply (Hnd _ _ Hc0f Hrow). split; [repeat constructor; auto|]. intros Hrev. inversion Hrev as [|? ? ? ? R0 R1']; subst.
        inversion R1'; subst. congruence.
    - intros (Hr & Hex & Hnv). pose proof (Hlen _ Hrow) as Hlr.
      assert (Hall : forall r lo hi x, nth_error lb r = Some lo -> nth_error ub r = Some hi -> nth_error row r = Some x ->
         nleb lo x = true /\ nleb x hi = true).
      { intros r lo hi x A B C. destruct (Hsp r lo hi A B) as (_ & _ & H). apply (H row); auto. }
      split; apply vle_nth; (split; [congruence|]); intros r x y Hx Hy.
      + destruct (nth_error ub r) as [hi|] eqn:E; [|apply nth_error_None in E; assert (r < length lb) by (apply nth_error_Some; congruence); lia].
        destruct (Hall r x hi y Hx E Hy); auto.
      + destruct (nth_error lb r) as [lo|] eqn:E; [|apply nth_error_None in E; assert (r < length ub) by (apply nth_error_Some; congruence); lia].
        destruct (Hall r lo y x E Hy Hx); auto.
  Qed.
End Nav.
