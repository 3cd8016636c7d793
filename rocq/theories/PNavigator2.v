(** * NAUTILUS Navigator: well-formed states, totality of a forward answer, the session invariant. *)
From Coq Require Import ZArith List Bool Lia.
From Verif Require Import Num Py Np Spec NpFacts MNavigator PENautilus PNavigator.
Import ListNotations.

Lemma lift_bind {S A B} (r : res A) (f : A -> SE S B) s a : r = Ok a -> sbind (lift r) f s = f a s.
Proof. intros ->. reflexivity. Qed.
Lemma lift_bind_raise {S A B} (r : res A) (f : A -> SE S B) s e : r = Raise e -> sbind (lift r) f s = (s, Raise e).
Proof. intros ->. reflexivity. Qed.
Lemma rseq_map_total {A B} (f : A -> res B) l : (forall a, In a l -> exists b, f a = Ok b) -> exists v, rseq (map f l) = Ok v.
Proof.
  induction l as [|a l IH]; intros H; simpl; [eauto|].
  destruct (H a (or_introl eq_refl)) as [b Hb]. rewrite Hb.
  destruct IH as [v Hv]; [intros; apply H; right; auto|]. rewrite Hv. simpl. eauto.
Qed.
Lemma bcast2_total {A B C} (f : A -> B -> C) a b : length a = length b -> exists v, bcast2 f a b = Ok v /\ length v = length a.
Proof. intros H. rewrite bcast2_eq by auto. eexists; split; eauto. rewrite zipw_length. lia. Qed.
Lemma zipw_nth {A B C} (f : A -> B -> C) a b i :
  nth_error (zipw f a b) i = match nth_error a i, nth_error b i with Some x, Some y => Some (f x y) | _, _ => None end.
Proof.
  revert b i. induction a as [|x a IH]; intros b i; destruct i; simpl; auto; destruct b; simpl; auto.
  destruct (nth_error a i); auto.
Qed.
Lemma nth_seq n i : i < n -> nth_error (seq 0 n) i = Some i.
Proof. 
  intros H. destruct (nth_error (seq 0 n) i) eqn:E; [|apply nth_error_None in E; rewrite seq_length in E; lia].
  rewrite (nth_error_nth' _ 0) in E by (rewrite seq_length; auto). rewrite seq_nth in E by auto. simpl in E. congruence.
Qed.

Section Nav.
  Context {N : NumOps}.
  Notation vec := (list N).
  Notation mat := (list (list N)).
  Implicit Types (asf : @asf_fn N) (s : nv_state N) (d : nv_dict N) (c : nv_content N) (q : nv_request N)
    (front : list (list N)).

  Lemma bany_gt_eq (a b : vec) : length a = length b -> bany (fun x y => nltb y x) a b = Ok (any_gt a b).
  Proof. intros H. unfold bany. rewrite bcast2_eq by auto. reflexivity. Qed.
  Lemma nan_row_length (r : vec) : length (nan_row r) = length r.
  Proof. apply map_length. Qed.
  Lemma nan_row_idem (r : vec) : nan_row (nan_row r) = nan_row r.
  Proof. unfold nan_row. rewrite map_map. reflexivity. Qed.
  Lemma nan_rows_length mask (m : mat) : length mask = length m -> length (nan_rows mask m) = length m.
  Proof. intros H. unfold nan_rows. rewrite zipw_length. lia. Qed.
  Lemma nan_rows_nth mask (m : mat) i :
    nth_error (nan_rows mask m) i = match nth_error mask i, nth_error m i with
      | Some b, Some row => Some (if b : bool then nan_row row else row) | _, _ => None end.
  Proof. unfold nan_rows. apply zipw_nth. Qed.
  Lemma nan_rows_matrix k mask (m : mat) : is_matrix k m -> is_matrix k (nan_rows mask m).
  Proof.
    intros H. unfold is_matrix in *. rewrite Forall_forall in *. intros r Hr.
    apply In_nth_error in Hr. destruct Hr as [i Hi]. rewrite nan_rows_nth in Hi.
    destruct (nth_error mask i) as [b|]; [|discriminate]. destruct (nth_error m i) as [row|] eqn:E; [|discriminate].
    injection Hi as <-. apply nth_error_In in E. apply H in E. destruct b; auto. rewrite nan_row_length. auto.
  Qed.

  (** Whether row [i] may be chosen as the projection. *)
  Definition adm_b (idx : idxarr) (bounds : vec) (i : nat) (row : vec) : bool :=
    existsb (Nat.eqb i) (idx_list idx) && negb (any_gt row bounds).

  Lemma idx_mask_nth front (idx : idxarr) i : i < length front ->
    nth_error (map negb (map (fun i => existsb (Nat.eqb i) (idx_list idx)) (seq 0 (length front)))) i
    = Some (negb (existsb (Nat.eqb i) (idx_list idx))).
  Proof. intros H. rewrite !nth_error_map. rewrite nth_seq by auto. reflexivity. Qed.

  Lemma masked_spec k front idx (bounds : vec) : is_matrix k front -> length bounds = k ->
    exists bmask, admissible_mask front idx bounds bmask /\
      length (masked front idx bmask) = length front /\
      forall i row, nth_error front i = Some row ->
        nth_error (masked front idx bmask) i = Some (if adm_b idx bounds i row then row else nan_row row).
  Proof.
    intros Hm Hb. unfold admissible_mask.
    set (msk := map negb (map (fun i => existsb (Nat.eqb i) (idx_list idx)) (seq 0 (length front)))).
    assert (Hlm : length msk = length front) by (unfold msk; rewrite !map_length, seq_length; auto).
    destruct (rseq_map_total (fun row => bany (fun x y => nltb y x) row bounds) (nan_rows msk front)) as [bmask Hbm].
    { intros a Ha. pose proof (nan_rows_matrix k msk front Hm) as Hm'. unfold is_matrix in Hm'. rewrite Forall_forall in Hm'.
      rewrite bany_gt_eq by (rewrite (Hm' a Ha); auto). eauto. }
    exists bmask. split; [exact Hbm|]. apply rseq_map_ok in Hbm.
    assert (Hlb : length bmask = length front).
    { apply Forall2_len in Hbm. rewrite <- Hbm. apply nan_rows_length. auto. }
    split. { unfold masked. fold msk. rewrite nan_rows_length; rewrite nan_rows_length; auto. }
    intros i row Hi. unfold masked. fold msk. rewrite !nan_rows_nth.
    assert (Hlt : i < length front) by (apply nth_error_Some; congruence).
    unfold msk. rewrite idx_mask_nth by auto. rewrite Hi.
    set (r1 := if negb (existsb (Nat.eqb i) (idx_list idx)) then nan_row row else row).
    assert (Hr1 : nth_error (nan_rows msk front) i = Some r1).
    { rewrite nan_rows_nth. unfold msk. rewrite idx_mask_nth, Hi by auto. reflexivity. }
    destruct (Forall2_nth_l _ _ _ _ _ Hbm Hr1) as [b [Hbi Hbe]]. rewrite Hbi. f_equal.
    unfold adm_b. unfold r1 in *. destruct (existsb (Nat.eqb i) (idx_list idx)); cbn [negb andb] in *.
    - rewrite bany_gt_eq in Hbe. injection Hbe as <-. { destruct (any_gt row bounds); reflexivity. }
      unfold is_matrix in Hm. rewrite Forall_forall in Hm. rewrite (Hm row); auto. eapply nth_error_In; eauto.
    - destruct b; auto. apply nan_row_idem.
  Qed.

  Lemma nv_solve_eq k asf front idx ref ideal nadir bounds bmask :
    is_matrix k front -> length bounds = k -> Forall (fun i => i < length front) (idx_list idx) ->
    admissible_mask front idx bounds bmask ->
    exists h, h_get h 0 = Ok front /\
      nv_solve asf [front] 0 idx ref ideal nadir bounds =
      rmap (fun i => (h, i)) (npnanargmin (map (fun row => asf nadir ideal row ref) (masked front idx bmask))).
  Proof.
    intros Hm Hb Hi Ha. destruct (take_lt front (idx_list idx) Hi) as [rows Hrows].
    exists ([front; masked front idx bmask]). split; [reflexivity|].
    unfold nv_solve. cbn [h_get at_ nth_error rbind h_new app length]. rewrite Hrows. cbn [rbind].
    unfold h_set, set_. cbn [set_nth rbind].
    unfold admissible_mask in Ha. rewrite Ha. cbn [rbind set_nth].
    fold (masked front idx bmask).
    destruct (npnanargmin _); reflexivity.
  Qed.

  Lemma nv_bounds_total front rows k nav bounds plb pub :
    is_matrix k rows -> length nav = k -> length bounds = k -> length plb = k -> length pub = k ->
    exists h lb ub, nv_bounds ([front] ++ [rows]) 1 k nav bounds plb pub = Ok (h, (lb, ub)) /\ h_get h 0 = Ok front /\
      length lb = k /\ length ub = k.
  Proof.
    intros Hm Hn Hb Hl Hu. unfold nv_bounds. cbn [h_get at_ nth_error rbind app].
    destruct (rseq_map_total (fun row => bany (fun x y => nltb y x) row bounds) rows) as [bm Hbm].
    { intros a Ha. unfold is_matrix in Hm. rewrite Forall_forall in Hm. rewrite bany_gt_eq by (rewrite (Hm a Ha); auto). eauto. }
    rewrite Hbm. cbn [rbind]. unfold h_set, set_. cbn [set_nth rbind].
    rewrite (proj2 (Nat.eqb_eq _ _) Hn). cbn [negb].
    destruct (rseq_map_total (nv_bound1 (nan_rows bm rows) nav plb pub) (seq 0 k)) as [bs Hbs].
    { intros r Hr. apply in_seq in Hr. unfold nv_bound1. destruct (nv_cell _ nav r) as [|x cl].
      - destruct (nth_error plb r) eqn:E1; [|apply nth_error_None in E1; lia].
        destruct (nth_error pub r) eqn:E2; [|apply nth_error_None in E2; lia].
        unfold at_. rewrite E1, E2. cbn [rbind]. eauto.
      - unfold npnanmin, npnanmax. destruct (npmin _); destruct (npmax _); cbn [rbind]; eauto. }
    rewrite Hbs. cbn [rbind]. eexists _, _, _. split; [reflexivity|]. split; [reflexivity|].
    apply rseq_map_ok in Hbs. apply Forall2_len in Hbs. rewrite seq_length in Hbs. rewrite !map_length. lia.
  Qed.

  Lemma nv_row_in_box_eq (row lb ub : vec) : length lb = length row -> length ub = length row ->
    nv_row_in_box row lb ub = Ok (vleb lb row && vleb row ub).
  Proof.
    intros H1 H2. unfold nv_row_in_box. rewrite !bcast2_eq by auto. cbn [rbind]. f_equal.
    unfold vleb, all_le. rewrite H1, H2, Nat.eqb_refl. cbn [andb]. f_equal.
    clear H2 ub. revert lb H1. induction row as [|x row IH]; intros [|y lb] H; try discriminate; auto.
    simpl. f_equal. apply IH. simpl in H. lia.
  Qed.

  Definition box_idx front (lb ub : vec) : list nat :=
    filter (fun i => match nth_error front i with Some row => vleb lb row && vleb row ub | None => false end) (seq 0 (length front)).
  Lemma argwhere_map {A} (f : A -> bool) l i0 :
    argwhere_from i0 (map f l) = filter (fun i => match nth_error l (i - i0) with Some a => f a | None => false end) (seq i0 (length l)).
  Proof.
    revert i0. induction l as [|a l IH]; intros i0; simpl; auto.
    rewrite Nat.sub_diag. simpl. rewrite IH.
    assert (E : forall P Q : nat -> bool, (forall i, i0 < i -> P i = Q i) -> filter P (seq (S i0) (length l)) = filter Q (seq (S i0) (length l))).
    { intros P Q HPQ. apply filter_ext_in. intros i Hi. apply in_seq in Hi. apply HPQ. lia. }
    assert (E' : filter (fun i => match nth_error l (i - S i0) with Some a => f a | None => false end) (seq (S i0) (length l)) =
       filter (fun i => match nth_error (a :: l) (i - i0) with Some a => f a | None => false end) (seq (S i0) (length l))).
    { apply E. intros i Hi. replace (i - i0) with (S (i - S i0)) by lia. reflexivity. }
    rewrite E'. destruct (f a); reflexivity.
  Qed.
  Lemma nv_reachable_eq k front lb ub : is_matrix k front -> length lb = k -> length ub = k ->
    nv_reachable front lb ub = Ok (squeeze_idx (box_idx front lb ub)).
  Proof.
    intros Hm Hl Hu. unfold nv_reachable.
    rewrite (rseq_map_ext _ (fun row => Ok (vleb lb row && vleb row ub))).
    2:{ intros a Ha. unfold is_matrix in Hm. rewrite Forall_forall in Hm. apply Hm in Ha. apply nv_row_in_box_eq; congruence. }
    rewrite map_rseq_ok. cbn [rbind]. do 2 f_equal. unfold argwhere. rewrite argwhere_map.
    unfold box_idx. apply filter_ext. intros i. rewrite Nat.sub_0_r. reflexivity.
  Qed.
  Lemma box_idx_spec front (lb ub : vec) i : In i (box_idx front lb ub) <-> exists row, nth_error front i = Some row /\ in_box row lb ub.
  Proof.
    unfold box_idx. rewrite filter_In, in_seq. unfold in_box. split.
    - intros [_ H]. destruct (nth_error front i) as [row|]; [|discriminate]. exists row. split; auto.
      apply andb_true_iff in H. rewrite !vleb_iff in H. tauto.
    - intros [row [H1 H2]]. rewrite H1. rewrite andb_true_iff, !vleb_iff. split; [|tauto].
      assert (i < length front) by (apply nth_error_Some; congruence). lia.
  Qed.
  Lemma box_idx_increasing front (lb ub : vec) : increasing (box_idx front lb ub).
  Proof.
    unfold box_idx, increasing. set (n := length front). generalize 0 at 1 as i0. clearbody n.
    set (P := fun i => _). clearbody P. induction n as [|n IH]; intros i0; simpl; [constructor|].
    destruct (P i0); [|apply IH]. constructor; [apply IH|]. apply Forall_forall. intros j Hj. apply filter_In in Hj.
    destruct Hj as [Hj _]. apply in_seq in Hj. lia.
  Qed.

  (** The part of an answer after the projection. *)
  Definition nv_rest (bounds : vec) : SE (nv_state N) (nv_request N) :=
    s1 <-- sget ;;
    pi <-- lift (some_or TypeErr (ns_proj s1)) ;;
    proj <-- lift (at_ (ns_front s1) pi) ;;
    nav <-- lift (nv_nav_point proj (ns_nav s1) (ns_left s1)) ;;
    smod (w_nav nav bounds) ;;;
    rows <-- lift (take (ns_front s1) (idx_list (ns_idx s1))) ;;
    let (h, l) := h_new [ns_front s1] rows in
    b <-- lift (nv_bounds h l (length (ns_nadir s1)) nav bounds (ns_lb s1) (ns_ub s1)) ;;
    f' <-- lift (h_get (fst b) 0) ;;
    smod (w_front f') ;;;
    smod (w_lu (fst (snd b)) (snd (snd b))) ;;;
    s2 <-- sget ;;
    proj2 <-- lift (at_ (ns_front s2) pi) ;;
    d <-- lift (nv_distance nav proj2 (ns_nadir s2)) ;;
    smod (w_dist d) ;;;
    idx <-- lift (nv_reachable (ns_front s2) (ns_lb s2) (ns_ub s2)) ;;
    smod (w_idx idx) ;;;
    s3 <-- sget ;;
    (if (ns_left s3 =? 1)%Z then sret tt
     else smod (w_count (ns_step s3 + 1) (ns_left s3 - 1))) ;;;
    s4 <-- sget ;;
    sret (nv_request_of s4).

  (** Shapes of a state: [k] objectives. *)
  Record wf (k : nat) s : Prop := {
    wf_front : is_matrix k (ns_front s);
    wf_nadir : length (ns_nadir s) = k;
    wf_lb : length (ns_lb s) = k; wf_ub : length (ns_ub s) = k;
    wf_bounds : length (ns_bounds s) = k; wf_nav : length (ns_nav s) = k;
    wf_idx : Forall (fun i => i < length (ns_front s)) (idx_list (ns_idx s));
    wf_count : (ns_step s + ns_left s = 101 /\ 1 <= ns_left s <= 100)%Z;
    wf_proj : match ns_proj s with Some p => p < length (ns_front s) | None => True end;
    wf_started : ns_step s <> 1%Z -> ns_proj s <> None /\ ns_ref s <> None }.

  Lemma nv_nav_point_total (proj nav : vec) r : (r <> 0)%Z -> length proj = length nav ->
    exists v, nv_nav_point proj nav r = Ok v /\ length v = length nav.
  Proof.
    intros Hr HL. unfold nv_nav_point. rewrite (proj2 (Z.eqb_neq _ _) Hr).
    destruct (bcast2_total nadd (vscale (ndiv (nofZ (r - 1)) (nofZ r)) nav) (vscale (ndiv (nofZ 1) (nofZ r)) proj)) as [v [H1 H2]].
    { unfold vscale. rewrite !map_length. auto. }
    rewrite H1. eexists; split; eauto. rewrite H2. unfold vscale. rewrite map_length. auto.
  Qed.
  Lemma nv_distance_total (nav proj nadir : vec) : length nav = length nadir -> length proj = length nadir ->
    exists dd, nv_distance nav proj nadir = Ok dd.
  Proof.
    intros H1 H2. unfold nv_distance. rewrite !bcast2_eq by auto. cbn [rbind]. eauto.
  Qed.

  Lemma nv_rest_total k bounds s p :
    wf k s -> length bounds = k -> ns_proj s = Some p ->
    exists s' q, nv_rest bounds s = (s', Ok q).
  Proof.
    intros W Hb Hp. destruct W as [Wf Wn Wl Wu Wb Wnv Wi Wc Wp Ws]. rewrite Hp in Wp.
    unfold nv_rest. unfold sget at 1. unfold sbind at 1. cbv beta.
    rewrite (lift_bind _ _ _ p) by (rewrite Hp; reflexivity).
    destruct (nth_error (ns_front s) p) as [proj|] eqn:Ep; [|apply nth_error_None in Ep; lia].
    rewrite (lift_bind _ _ _ proj) by (unfold at_; rewrite Ep; reflexivity).
    assert (Hpl : length proj = k).
    { unfold is_matrix in Wf. rewrite Forall_forall in Wf. apply Wf. eapply nth_error_In; eauto. }
    destruct (nv_nav_point_total proj (ns_nav s) (ns_left s)) as (nav & Hnav & Hnl); [lia|congruence|].
    rewrite (lift_bind _ _ _ nav Hnav). unfold smod at 1. unfold sbind at 1. cbv beta.
    destruct (take_lt _ _ Wi) as [rows Hrows]. rewrite (lift_bind _ _ _ rows Hrows).
    cbn [h_new length].
    assert (Hmr : is_matrix k rows).
    { apply take_ok in Hrows. apply Forall_forall. intros r Hr. destruct (Forall2_In_r _ _ _ _ Hrows Hr) as [i [_ Hi]].
      unfold is_matrix in Wf. rewrite Forall_forall in Wf. apply Wf. eapply nth_error_In; eauto. }
    rewrite Wn.
    destruct (nv_bounds_total (ns_front s) rows k nav bounds (ns_lb s) (ns_ub s)) as (h & lb & ub & Hbn & Hh & Hl1 & Hl2); auto; [congruence|].
    rewrite (lift_bind _ _ _ _ Hbn). cbn [fst snd]. rewrite (lift_bind _ _ _ _ Hh).
    unfold smod at 1. unfold sbind at 1. cbv beta.
    unfold smod at 1. unfold sbind at 1. cbv beta.
    unfold sget at 1. unfold sbind at 1. cbv beta.
    cbn [ns_front w_lu w_front ns_nadir ns_lb ns_ub].
    rewrite (lift_bind _ _ _ proj) by (unfold at_; rewrite Ep; reflexivity).
    destruct (nv_distance_total nav proj (ns_nadir s)) as [dd Hdd]; [congruence|congruence|].
    cbn [w_nav ns_nadir]. rewrite (lift_bind _ _ _ dd Hdd).
    unfold smod at 1. unfold sbind at 1. cbv beta.
    rewrite (lift_bind _ _ _ _ (nv_reachable_eq k _ lb ub Wf Hl1 Hl2)).
    unfold smod at 1. unfold sbind at 1. cbv beta.
    unfold sget at 1. unfold sbind at 1. cbv beta.
    destruct (_ =? 1)%Z; unfold sbind, smod, sret, sget; eauto.
  Qed.
End Nav.
