(** * Proofs about the E-NAUTILUS model. *)
From Coq Require Import ZArith List Bool Lia Reals Lra.
From Verif Require Import Num NumXR Py Np Spec NpFacts XRFacts MENautilus.
Import ListNotations.

Ltac inv_ok :=
  repeat match goal with
  | H : sbind _ _ _ = (_, Ok _) |- _ =>
      apply sbind_ok in H; let a := fresh "a" in let s := fresh "s" in
      let H1 := fresh "H" in let H2 := fresh "H" in destruct H as (a & s & H1 & H2)
  | H : lift _ _ = (_, Ok _) |- _ => unfold lift in H
  | H : smod _ _ = (_, Ok _) |- _ => unfold smod in H
  | H : sget _ = (_, Ok _) |- _ => unfold sget in H
  | H : sret _ _ = (_, Ok _) |- _ => unfold sret in H
  | H : (_, _) = (_, Ok _) |- _ => injection H as H; subst
  | H : (_, _) = (_, _) |- _ => injection H as ? ?; subst
  end.

Section Gen.
  Context {N : NumOps}.
  Notation vec := (list N).
  Notation mat := (list (list N)).
  Implicit Types (km : @km_oracle N) (s : en_state N) (d : en_dict N) (c : en_content N) (q : en_request N).
  Implicit Types (front points : mat).

  Lemma key_ok {A} (o : option A) a : key o = Ok a -> o = Some a.
  Proof. destruct o; simpl; intros H; inversion H; auto. Qed.
  Lemma some_or_type_ok {A} (o : option A) a : some_or_type o = Ok a -> o = Some a.
  Proof. destruct o; simpl; intros H; inversion H; auto. Qed.

  (** Shape of a request produced by [en_next]. *)
  Definition next_spec (km : @km_oracle N) (s : en_state N) (q : en_request N) : Prop :=
    exists np p n zbars zs lbs ubs ds mi,
      es_npoints s = Some np /\ es_pref s = Some p /\ es_left s = Some n /\
      en_representatives km (es_front s) (es_idx s) np = Ok zbars /\
      en_intermediate p zbars n = Ok zs /\
      en_bounds (es_front s) (length (es_nadir s)) zs = Ok (lbs, ubs) /\
      en_distances zs zbars (es_nadir s) = Ok ds /\
      en_max_index zs = Ok mi /\
      q = EReq mi (MkEC (es_ideal s) (es_nadir s) zs lbs ubs n ds).

  Lemma en_next_ok km s s' q : en_next km s = (s', Ok q) -> s' = s /\ next_spec km s q.
  Proof.
    unfold en_next. intros H. inv_ok.
    repeat match goal with H : some_or_type _ = Ok _ |- _ => apply some_or_type_ok in H end.
    match goal with H : en_mk_request _ = Ok _ |- _ => unfold en_mk_request in H; apply rmap_ok in H; destruct H as [mi [Hmi Hq]] end.
    split; [reflexivity|].
    match goal with H : en_bounds _ _ _ = Ok ?b |- _ => destruct b as [lbs ubs] end.
    unfold next_spec. do 9 eexists. repeat split; eauto.
  Qed.

  Lemma en_next_state km s : fst (en_next km s) = s.
  Proof.
    unfold en_next, sbind, lift, sget.
    repeat match goal with
    | |- context [match ?r with Ok _ => _ | Raise _ => _ end] => destruct r; [|reflexivity]
    end. reflexivity.
  Qed.

  Lemma en_initial_ok km d s s' q :
    en_handle_initial km d s = (s', Ok q) ->
    exists ni np, d_n_iterations d = Some ni /\ d_n_points d = Some np /\
      s' = MkES (es_front s) (es_ideal s) (es_nadir s) (es_vars s) (es_ub s) (es_lb s) (es_idx s)
                (Some (es_nadir s)) (as_int np) (as_int ni) /\
      next_spec km s' q.
  Proof.
    unfold en_handle_initial. intros H. inv_ok.
    repeat match goal with H : key _ = Ok _ |- _ => apply key_ok in H end.
    match goal with H : en_next _ _ = _ |- _ => apply en_next_ok in H; destruct H as [-> H] end.
    do 2 eexists. repeat split; eauto.
  Qed.

  (** Outcome of a forward answer. *)
  Lemma en_forward_ok km c d s s' q :
    en_handle_request km c d s = (s', Ok q) -> d_step_back d = Some false ->
    exists i p n, d_index d = Some i /\ py_nth (ec_points c) i = Ok p /\ es_left s = Some n /\
      (((n <= 1)%Z /\ s' = set_left (Some 0%Z) (set_pref (Some p) s) /\ en_stop s' p = Ok q) \/
       ((1 < n)%Z /\ exists lb ub ri ch n',
          py_nth (ec_lb c) i = Ok lb /\ py_nth (ec_ub c) i = Ok ub /\
          en_reachable (es_front s) lb ub = Ok ri /\
          d_change d = Some ch /\
          (if ch then d_iterations_left d = Some n' else n' = (n - 1)%Z) /\
          s' = MkES (es_front s) (es_ideal s) (es_nadir s) (es_vars s) ub lb ri (Some p) (es_npoints s) (Some n') /\
          next_spec km s' q)).
  Proof.
    intros H Hsb. unfold en_handle_request in H. rewrite Hsb in H. simpl in H.
    apply sbind_ok in H. destruct H as (sb & s0 & H0 & H). unfold lift in H0. injection H0 as <- <-. simpl in H.
    apply sbind_ok in H. destruct H as (i & s0 & H0 & H). unfold lift in H0. injection H0 as <- Hi. apply key_ok in Hi.
    apply sbind_ok in H. destruct H as (p & s0 & H0 & H). unfold lift in H0. injection H0 as <- Hp.
    apply sbind_ok in H. destruct H as (u & s0 & H0 & H). unfold smod in H0. injection H0 as <- _.
    apply sbind_ok in H. destruct H as (s1 & s0 & H0 & H). unfold sget in H0. injection H0 as <- <-.
    apply sbind_ok in H. destruct H as (n & s0 & H0 & H). unfold lift in H0. injection H0 as <- Hn.
    apply some_or_type_ok in Hn. simpl in Hn.
    exists i, p, n. repeat split; auto.
    destruct (Z.leb_spec n 1) as [Hle|Hgt].
    - left. split; auto.
      apply sbind_ok in H. destruct H as (u2 & s0 & H0 & H). unfold smod in H0. injection H0 as <- _.
      apply sbind_ok in H. destruct H as (s1 & s0 & H0 & H). unfold sget in H0. injection H0 as <- <-.
      unfold lift in H. injection H as <- H. split; auto.
    - right. split; auto.
      apply sbind_ok in H. destruct H as (lb & s0 & H0 & H). unfold lift in H0. injection H0 as <- Hlb.
      apply sbind_ok in H. destruct H as (u2 & s0 & H0 & H). unfold smod in H0. injection H0 as <- _.
      apply sbind_ok in H. destruct H as (ub & s0 & H0 & H). unfold lift in H0. injection H0 as <- Hub.
      apply sbind_ok in H. destruct H as (u3 & s0 & H0 & H). unfold smod in H0. injection H0 as <- _.
      apply sbind_ok in H. destruct H as (s1 & s0 & H0 & H). unfold sget in H0. injection H0 as <- <-.
      apply sbind_ok in H. destruct H as (ri & s0 & H0 & H). unfold lift in H0. injection H0 as <- Hri. simpl in Hri.
      apply sbind_ok in H. destruct H as (u4 & s0 & H0 & H). unfold smod in H0. injection H0 as <- _.
      apply sbind_ok in H. destruct H as (ch & s0 & H0 & H). unfold lift in H0. injection H0 as <- Hch. apply key_ok in Hch.
      apply sbind_ok in H. destruct H as (u5 & s2 & H0 & H).
      apply en_next_ok in H. destruct H as [-> H].
      exists lb, ub, ri, ch.
      destruct ch; simpl in H0.
      + apply sbind_ok in H0. destruct H0 as (n' & s0 & H1 & H0). unfold lift in H1. injection H1 as <- Hn'.
        apply key_ok in Hn'. unfold smod in H0. injection H0 as <- _.
        exists n'. repeat split; auto.
      + unfold smod in H0. injection H0 as <- _.
        exists (n - 1)%Z. repeat split; auto.
  Qed.

  (** The converse: how a forward answer computes. *)
  Lemma en_forward_stop_eq km c d s i p n out :
    d_step_back d = Some false -> d_index d = Some i -> py_nth (ec_points c) i = Ok p ->
    es_left s = Some n -> (n <= 1)%Z ->
    en_stop (set_left (Some 0%Z) (set_pref (Some p) s)) p = out ->
    en_handle_request km c d s = (set_left (Some 0%Z) (set_pref (Some p) s), out).
  Proof.
    intros Hsb Hi Hp El Hn Hq. unfold en_handle_request. rewrite Hsb, Hi. unfold sbind, lift, smod, sget. simpl.
    rewrite Hp. simpl. rewrite El. apply Z.leb_le in Hn. simpl. rewrite Hn. rewrite Hq. reflexivity.
  Qed.
  Lemma en_forward_step_eq km c d s i p n n' lb ub ri :
    d_step_back d = Some false -> d_index d = Some i -> py_nth (ec_points c) i = Ok p ->
    es_left s = Some n -> (1 < n)%Z ->
    py_nth (ec_lb c) i = Ok lb -> py_nth (ec_ub c) i = Ok ub -> en_reachable (es_front s) lb ub = Ok ri ->
    (d_change d = Some false /\ n' = (n - 1)%Z \/ d_change d = Some true /\ d_iterations_left d = Some n') ->
    en_handle_request km c d s =
    en_next km (MkES (es_front s) (es_ideal s) (es_nadir s) (es_vars s) ub lb ri (Some p) (es_npoints s) (Some n')).
  Proof.
    intros Hsb Hi Hp El Hn Hlb Hub Hri Hch. unfold en_handle_request. rewrite Hsb, Hi. unfold sbind, lift, smod, sget. simpl.
    rewrite Hp. simpl. rewrite El. simpl. rewrite (proj2 (Z.leb_gt n 1) Hn). simpl.
    rewrite Hlb. simpl. rewrite Hub. simpl. rewrite Hri.
    destruct Hch as [[-> ->]|[-> ->]]; reflexivity.
  Qed.
  Lemma en_next_eq km s np p n zbars zs lbs ubs ds mi :
    es_npoints s = Some np -> es_pref s = Some p -> es_left s = Some n ->
    en_representatives km (es_front s) (es_idx s) np = Ok zbars ->
    en_intermediate p zbars n = Ok zs ->
    en_bounds (es_front s) (length (es_nadir s)) zs = Ok (lbs, ubs) ->
    en_distances zs zbars (es_nadir s) = Ok ds ->
    en_max_index zs = Ok mi ->
    en_next km s = (s, Ok (EReq mi (MkEC (es_ideal s) (es_nadir s) zs lbs ubs n ds))).
  Proof.
    intros A B C D E F G H. unfold en_next, sbind, lift, sget. rewrite A, B, C. simpl.
    rewrite D, E, F, G. unfold en_mk_request. simpl. rewrite H. reflexivity.
  Qed.

  Lemma en_back_ok km c d s s' q :
    en_handle_request km c d s = (s', Ok q) -> d_step_back d = Some true ->
    exists zs lbs ubs n ds mi,
      d_prev_solutions d = Some zs /\ d_prev_lb d = Some lbs /\ d_prev_ub d = Some ubs /\
      d_iterations_left d = Some n /\ d_prev_dist d = Some ds /\
      en_max_index zs = Ok mi /\
      s' = set_left (Some n) s /\
      q = EReq mi (MkEC (es_ideal s) (es_nadir s) zs lbs ubs n ds).
  Proof.
    intros H Hsb. unfold en_handle_request in H. rewrite Hsb in H. simpl in H.
    apply sbind_ok in H. destruct H as (sb & s0 & H0 & H). unfold lift in H0. injection H0 as <- <-. simpl in H.
    inv_ok.
    repeat match goal with H : key _ = Ok _ |- _ => apply key_ok in H end.
    match goal with H : en_mk_request _ = Ok _ |- _ => unfold en_mk_request in H; apply rmap_ok in H; destruct H as [mi [Hmi Hq]] end.
    simpl in *. do 6 eexists. repeat split; eauto.
  Qed.

  (** ** Attributes that no call changes *)
  Definition same_data (s s' : en_state N) : Prop :=
    es_front s' = es_front s /\ es_ideal s' = es_ideal s /\ es_nadir s' = es_nadir s /\ es_vars s' = es_vars s.

  Lemma same_data_refl s : same_data s s.
  Proof. repeat split. Qed.
  Lemma same_data_trans s1 s2 s3 : same_data s1 s2 -> same_data s2 s3 -> same_data s1 s3.
  Proof. unfold same_data. intros (A&B&C&D) (E&F&G&H). repeat split; congruence. Qed.

  Definition preserves (P : en_state N -> en_state N -> Prop) {A} (m : SE (en_state N) A) : Prop :=
    forall s, P s (fst (m s)).
  Lemma pres_bind (P : en_state N -> en_state N -> Prop)
        (Pt : forall s1 s2 s3, P s1 s2 -> P s2 s3 -> P s1 s3)
        {A B} (m : SE (en_state N) A) (f : A -> SE (en_state N) B) :
    preserves P m -> (forall a, preserves P (f a)) -> preserves P (sbind m f).
  Proof.
    intros H1 H2 s. unfold sbind. specialize (H1 s). destruct (m s) as [s1 [a|e]]; simpl in *; auto.
    eapply Pt; [exact H1|apply H2].
  Qed.
  Lemma pres_lift (P : en_state N -> en_state N -> Prop) (Pr : forall a, P a a) {A} (r : res A) :
    preserves P (lift r).
  Proof. intros s. apply Pr. Qed.
  Lemma pres_get (P : en_state N -> en_state N -> Prop) (Pr : forall a, P a a) : preserves P sget.
  Proof. intros s. apply Pr. Qed.
  Lemma pres_next (P : en_state N -> en_state N -> Prop) (Pr : forall a, P a a) km : preserves P (en_next km).
  Proof. intros s. rewrite en_next_state. apply Pr. Qed.

  Ltac pres Pr Pt :=
    repeat first
      [ apply (pres_bind _ Pt); [|intros ?]
      | apply (pres_lift _ Pr)
      | apply (pres_get _ Pr)
      | apply (pres_next _ Pr)
      | match goal with |- preserves _ (if ?b then _ else _) => destruct b end
      | (intros ?; unfold smod; repeat split; fail) ].

  Lemma en_iterate_same_data km q resp : preserves same_data (en_iterate km q resp).
  Proof.
    unfold en_iterate. destruct q as [i n|mi c|o x]; [| |intros s; apply same_data_refl];
      (destruct resp as [d|]; [|intros s; apply same_data_refl]).
    - unfold en_handle_initial. pres same_data_refl same_data_trans.
    - unfold en_handle_request. pres same_data_refl same_data_trans.
  Qed.

  (** Without answering the initial request again the number of points is kept. *)
  Definition same_np (s s' : en_state N) : Prop := es_npoints s' = es_npoints s.
  Lemma en_request_same_np km mi c resp : preserves same_np (en_iterate km (EReq mi c) resp).
  Proof.
    assert (Pr : forall a, same_np a a) by reflexivity.
    assert (Pt : forall s1 s2 s3, same_np s1 s2 -> same_np s2 s3 -> same_np s1 s3) by (unfold same_np; congruence).
    unfold en_iterate. destruct resp as [d|]; [|intros s; apply Pr].
    unfold en_handle_request. pres Pr Pt.
  Qed.

  Lemma en_reach_data front ideal nadir vars s qs :
    en_reach front ideal nadir vars s qs ->
    es_front s = front /\ es_ideal s = ideal /\ es_nadir s = nadir /\ es_vars s = vars.
  Proof.
    induction 1 as [|s qs q resp km s' out _ IH _ _ E].
    - repeat split.
    - pose proof (en_iterate_same_data km q resp s) as P. rewrite E in P. simpl in P.
      destruct IH as (A&B&C&D), P as (A'&B'&C'&D'). repeat split; congruence.
  Qed.

  (** ** Reachable index sets (C04) *)
  Lemma row_in_box_iff (row lb ub : vec) b :
    length lb = length row -> length ub = length row ->
    row_in_box row lb ub = Ok b -> (b = true <-> in_box row lb ub).
  Proof.
    intros Hl Hu H. unfold row_in_box in H.
    rewrite !bcast2_eq in H by auto. simpl in H. injection H as <-.
    rewrite andb_true_iff. unfold in_box. rewrite !forallb_id_zipw by auto.
    split; intros [A B]; split; auto.
    - apply F2_flip in A. exact A.
    - apply F2_flip in A. exact A.
  Qed.
  Lemma row_in_box_ok (row lb ub : vec) :
    length lb = length row -> length ub = length row -> exists b, row_in_box row lb ub = Ok b.
  Proof. intros Hl Hu. unfold row_in_box. rewrite !bcast2_eq by auto. simpl. eauto. Qed.

  Lemma en_reachable_spec k (front : mat) lb ub :
    is_matrix k front -> length lb = k -> length ub = k ->
    exists idx, en_reachable front lb ub = Ok idx /\
      increasing (idx_list idx) /\
      forall i, In i (idx_list idx) <-> exists row, nth_error front i = Some row /\ in_box row lb ub.
  Proof.
    intros Hm Hlb Hub. unfold en_reachable.
    assert (Hex : exists m, rseq (map (fun row => row_in_box row lb ub) front) = Ok m).
    { induction Hm as [|row front Hrow Hm IH]; simpl; [eauto|].
      destruct (row_in_box_ok row lb ub) as [b Hb]; [congruence|congruence|]. rewrite Hb.
      destruct IH as [m Hm']. rewrite Hm'. simpl. eauto. }
    destruct Hex as [m Hmask]. rewrite Hmask. simpl. exists (squeeze_idx (argwhere m)).
    rewrite idx_list_squeeze. split; [reflexivity|]. split; [apply argwhere_sorted|].
    apply rseq_map_ok in Hmask.
    intros i. rewrite argwhere_spec. split.
    - intros Hi. destruct (Forall2_nth_r _ _ _ _ _ Hmask Hi) as [row [Hrow Hb]].
      exists row. split; auto.
      unfold is_matrix in Hm. rewrite Forall_forall in Hm.
      assert (length row = k) by (apply Hm; eapply nth_error_In; eauto).
      eapply row_in_box_iff; [| |exact Hb|reflexivity]; congruence.
    - intros (row & Hrow & Hbox).
      destruct (Forall2_nth_l _ _ _ _ _ Hmask Hrow) as [b [Hb Hrb]].
      unfold is_matrix in Hm. rewrite Forall_forall in Hm.
      assert (length row = k) by (apply Hm; eapply nth_error_In; eauto).
      rewrite Hb. f_equal. eapply row_in_box_iff; [| |exact Hrb|exact Hbox]; congruence.
  Qed.

  (** ** Representatives (C02) *)
  Definition km_ok (km : @km_oracle N) : Prop :=
    forall rows n closest, km rows n = Ok closest ->
      Z.of_nat (length closest) = n /\ Forall (fun i => i < length rows) closest.

  Lemma take_rows_In {A} (m : list A) l v x : take m l = Ok v -> In x v ->
    exists i, In i l /\ nth_error m i = Some x.
  Proof. intros H Hx. apply take_ok in H. destruct (Forall2_In_r _ _ _ _ H Hx) as [i Hi]. eauto. Qed.

  Lemma en_representatives_spec km front idx np zbars :
    km_ok km -> (1 <= np)%Z ->
    en_representatives km front idx np = Ok zbars ->
    (exists ids, incl ids (idx_list idx) /\ Forall2 (fun i row => nth_error front i = Some row) ids zbars) /\
    Z.of_nat (length zbars) = Z.min np (Z.of_nat (length (idx_list idx))).
  Proof.
    intros Hk Hnp H. unfold en_representatives in H.
    apply rbind_ok in H. destruct H as [rows [Hr H]]. apply take_ok in Hr.
    pose proof (Forall2_len _ _ _ Hr) as Hlen.
    destruct (Z.ltb_spec np (Z.of_nat (length (idx_list idx)))) as [Hlt|Hge].
    - apply rbind_ok in H. destruct H as [cl [Hcl H]]. apply take_ok in H.
      destruct (Hk _ _ _ Hcl) as [Hn Hin]. split.
      + exists (map (fun j => nth j (idx_list idx) 0) cl). split.
        * intros i Hi. apply in_map_iff in Hi. destruct Hi as [j [Hj Hin2]]. subst.
          rewrite Forall_forall in Hin. apply nth_In. rewrite Hlen. auto.
        * clear Hcl Hn Hlt. induction H as [|j row cl zb Hj H IH]; simpl; constructor.
          -- destruct (Forall2_nth_r _ _ _ _ _ Hr Hj) as [i [Hi1 Hi2]].
             rewrite (nth_error_nth _ _ 0 Hi1). auto.
          -- apply IH. inversion Hin; auto.
      + pose proof (Forall2_len _ _ _ H). lia.
    - injection H as <-. split; [|lia].
      exists (idx_list idx). split; [apply incl_refl|auto].
  Qed.
  (** Without any contract on the clustering, representatives are reachable rows. *)
  Lemma en_representatives_rows km front idx np zbars :
    en_representatives km front idx np = Ok zbars ->
    Forall (fun zb => exists i, In i (idx_list idx) /\ nth_error front i = Some zb) zbars.
  Proof.
    intros H. unfold en_representatives in H.
    apply rbind_ok in H. destruct H as [rows [Hr H]].
    apply Forall_forall. intros zb Hzb.
    destruct (np <? Z.of_nat (length (idx_list idx)))%Z.
    - apply rbind_ok in H. destruct H as [cl [Hcl H]].
      destruct (take_rows_In _ _ _ _ H Hzb) as [j [_ Hj]].
      eapply take_rows_In; eauto. eapply nth_error_In; eauto.
    - injection H as <-. eapply take_rows_In; eauto.
  Qed.
End Gen.

(** ** Bounds (C03): order only *)
Section Ord.
  Context {N : NumOps} (L : OrdLaws N).
  Notation vec := (list N).
  Notation mat := (list (list N)).
  Implicit Types (km : @km_oracle N) (s : en_state N) (d : en_dict N) (c : en_content N) (q : en_request N).
  Implicit Types (front points : mat).

  (** [row] is at least as good as [z] in every objective other than [r]. *)
  Definition ok_except (r : nat) (row z : vec) : Prop :=
    forall j x y, j <> r -> nth_error row j = Some x -> nth_error z j = Some y -> nleb x y = true.

  Lemma en_cell_In k front (point : vec) r x :
    is_matrix k front -> length point = k -> r < k ->
    (In x (en_cell front point r) <->
     exists row, In row front /\ ok_except r row point /\ nth_error row r = Some x).
  Proof.
    intros Hm Hp Hr. unfold en_cell. rewrite in_map_iff.
    unfold is_matrix in Hm. rewrite Forall_forall in Hm.
    split.
    - intros (row & Hx & Hin). apply filter_In in Hin. destruct Hin as [Hin Hle].
      exists row. specialize (Hm row Hin). split; auto. split.
      + exact (proj1 (all_le_drop_iff (N:=N) r row point ltac:(lia) ltac:(lia)) Hle).
      + rewrite <- Hx. apply nth_error_nth'. lia.
    - intros (row & Hin & Hok & Hx). specialize (Hm row Hin). exists row. split.
      + apply (nth_error_nth row r nnan Hx).
      + apply filter_In. split; auto. exact (proj2 (all_le_drop_iff (N:=N) r row point ltac:(lia) ltac:(lia)) Hok).
  Qed.

  Lemma en_bounds1_ok k front (point : vec) lb ub :
    en_bounds1 front k point = Ok (lb, ub) ->
    length point = k /\ length lb = k /\ length ub = k /\
    forall r, r < k -> exists lo hi, nth_error lb r = Some lo /\ nth_error ub r = Some hi /\
      npmin (en_cell front point r) = Ok lo /\ npmax (en_cell front point r) = Ok hi.
  Proof.
    unfold en_bounds1. destruct (Nat.eqb_spec (length point) k) as [Hp|]; [simpl|discriminate].
    intros H. apply rbind_ok in H. destruct H as [cells [Hc H]]. injection H as <- <-.
    apply rseq_map_ok in Hc. pose proof (Forall2_len _ _ _ Hc) as HL. rewrite seq_length in HL.
    rewrite !map_length. repeat split; auto.
    intros r Hr.
    assert (Hs : nth_error (seq 0 k) r = Some r).
    { rewrite (nth_error_nth' _ 0) by (rewrite seq_length; auto). rewrite seq_nth by auto. reflexivity. }
    destruct (Forall2_nth_l _ _ _ _ _ Hc Hs) as [[lo hi] [Hcell Hv]].
    exists lo, hi. rewrite !nth_error_map, Hcell. simpl. repeat split.
    - destruct (npmin (en_cell front point r)); simpl in Hv; [|discriminate].
      destruct (npmax (en_cell front point r)); simpl in Hv; inversion Hv; auto.
    - destruct (npmin (en_cell front point r)); simpl in Hv; [|discriminate].
      destruct (npmax (en_cell front point r)); simpl in Hv; inversion Hv; auto.
  Qed.

  (** Bounds exist as soon as every objective has an admissible row. *)
  Lemma en_bounds1_defined k front (point : vec) :
    is_matrix k front -> length point = k ->
    (forall r, r < k -> exists row, In row front /\ ok_except r row point) ->
    exists lb ub, en_bounds1 front k point = Ok (lb, ub).
  Proof.
    intros Hm Hp Hrow. unfold en_bounds1. rewrite Hp, Nat.eqb_refl. simpl.
    assert (Hex : exists cells, rseq (map (fun r =>
       do lo <- npmin (en_cell front point r); do hi <- npmax (en_cell front point r); Ok (lo, hi)) (seq 0 k)) = Ok cells).
    { assert (forall l, (forall r, In r l -> r < k) -> exists cells, rseq (map (fun r =>
       do lo <- npmin (en_cell front point r); do hi <- npmax (en_cell front point r); Ok (lo, hi)) l) = Ok cells) as HH.
      { induction l as [|r l IH]; intros Hl; simpl; [eauto|].
        destruct (Hrow r) as [row [Hin Hok]]; [apply Hl; left; auto|].
        assert (Hr : r < k) by (apply Hl; left; auto).
        assert (Hne : en_cell front point r <> []).
        { assert (Hlen : length row = k).
          { unfold is_matrix in Hm. rewrite Forall_forall in Hm. auto. }
          assert (In (nth r row nnan) (en_cell front point r)).
          { eapply en_cell_In; eauto. exists row. repeat split; auto. apply nth_error_nth'. lia. }
          intros E. rewrite E in H. contradiction. }
        destruct (proj1 (npmin_nonempty _) Hne) as [lo Hlo].
        destruct (proj1 (npmax_nonempty _) Hne) as [hi Hhi].
        rewrite Hlo, Hhi. simpl. destruct IH as [cells Hc]; [intros; apply Hl; right; auto|].
        rewrite Hc. simpl. eauto. }
      apply HH. intros r Hr. apply in_seq in Hr. lia. }
    destruct Hex as [cells Hc]. rewrite Hc. simpl. eauto.
  Qed.

  Lemma en_bounds_ok k front points lbs ubs :
    en_bounds front k points = Ok (lbs, ubs) ->
    Forall2 (fun p lb => exists ub, en_bounds1 front k p = Ok (lb, ub)) points lbs /\
    Forall2 (fun p ub => exists lb, en_bounds1 front k p = Ok (lb, ub)) points ubs /\
    forall i p lb ub, nth_error points i = Some p -> nth_error lbs i = Some lb -> nth_error ubs i = Some ub ->
      en_bounds1 front k p = Ok (lb, ub).
  Proof.
    unfold en_bounds. intros H. apply rbind_ok in H. destruct H as [bs [Hb H]]. injection H as <- <-.
    apply rseq_map_ok in Hb. repeat split.
    - induction Hb as [|p [lb ub] points bs Hp Hb IH]; simpl; constructor; eauto.
    - induction Hb as [|p [lb ub] points bs Hp Hb IH]; simpl; constructor; eauto.
    - intros i p lb ub Hp Hlb Hub.
      destruct (Forall2_nth_l _ _ _ _ _ Hb Hp) as [[lb' ub'] [Hi Hpb]].
      rewrite nth_error_map, Hi in Hlb. rewrite nth_error_map, Hi in Hub. simpl in *. congruence.
  Qed.

  (** The specification of one pair of bounds. *)
  Lemma en_bounds1_spec k front (point lb ub : vec) :
    is_matrix k front -> nan_free_m front ->
    en_bounds1 front k point = Ok (lb, ub) ->
    (forall r lo hi, nth_error lb r = Some lo -> nth_error ub r = Some hi ->
       nleb lo hi = true /\
       (exists row, In row front /\ ok_except r row point /\ nth_error row r = Some lo) /\
       (exists row, In row front /\ ok_except r row point /\ nth_error row r = Some hi) /\
       (forall row x, In row front -> ok_except r row point -> nth_error row r = Some x ->
          nleb lo x = true /\ nleb x hi = true)) /\
    (forall row, In row front -> vle row point -> in_box row lb ub).
  Proof.
    intros Hm Hf H. destruct (en_bounds1_ok _ _ _ _ _ H) as (Hp & Hl & Hu & Hr).
    assert (Hcellfree : forall r, r < k -> nan_free (en_cell front point r)).
    { intros r Hrk. apply Forall_forall. intros x Hx. apply (en_cell_In k) in Hx; auto.
      destruct Hx as (row & Hin & _ & Hx). unfold nan_free_m in Hf. rewrite Forall_forall in Hf.
      specialize (Hf row Hin). unfold nan_free in Hf. rewrite Forall_forall in Hf.
      apply Hf. eapply nth_error_In; eauto. }
    assert (Hall : forall r lo hi, nth_error lb r = Some lo -> nth_error ub r = Some hi ->
       r < k /\ npmin (en_cell front point r) = Ok lo /\ npmax (en_cell front point r) = Ok hi).
    { intros r lo hi Hlo Hhi.
      assert (Hrk : r < k) by (rewrite <- Hl; apply nth_error_Some; congruence).
      destruct (Hr r Hrk) as (lo' & hi' & A & B & C & D). rewrite Hlo in A. rewrite Hhi in B.
      inversion A; inversion B; subst; auto. }
    assert (Hin : forall r lo hi row x, nth_error lb r = Some lo -> nth_error ub r = Some hi ->
       In row front -> ok_except r row point -> nth_error row r = Some x ->
          nleb lo x = true /\ nleb x hi = true).
    { intros r lo hi row x Hlo Hhi Hrow Hok Hx.
      destruct (Hall _ _ _ Hlo Hhi) as (Hrk & Hmin & Hmax).
      assert (Hxc : In x (en_cell front point r)) by (apply (en_cell_In k); eauto).
      split.
      - eapply (npmin_le L); eauto.
      - eapply (npmax_ge L); eauto. }
    split.
    - intros r lo hi Hlo Hhi. destruct (Hall _ _ _ Hlo Hhi) as (Hrk & Hmin & Hmax).
      pose proof (npmin_In _ _ Hmin) as I1. apply (en_cell_In k) in I1; auto.
      pose proof (npmax_In _ _ Hmax) as I2. apply (en_cell_In k) in I2; auto.
      assert (Hlh : nleb lo hi = true) by (destruct I2 as (row & A & B & C); apply (Hin r lo hi row hi); auto).
      split; [exact Hlh|]. split; [exact I1|]. split; [exact I2|].
      intros row x A B C. apply (Hin r lo hi row x); auto.
    - intros row Hrow Hle.
      assert (Hlen : length row = k) by (unfold is_matrix in Hm; rewrite Forall_forall in Hm; auto).
      assert (Hok : forall r, ok_except r row point).
      { intros r j x y _ Hx Hy. apply vle_nth in Hle. destruct Hle as [_ Hle]. eauto. }
      split; apply vle_nth; (split; [lia|]).
      + intros r lo x Hlo Hx. assert (Hrk : r < k) by (rewrite <- Hl; apply nth_error_Some; congruence).
        destruct (nth_error ub r) as [hi|] eqn:Hhi; [|apply nth_error_None in Hhi; lia].
        apply (Hin r lo hi row x); auto.
      + intros r x hi Hx Hhi. assert (Hrk : r < k) by (rewrite <- Hu; apply nth_error_Some; congruence).
        destruct (nth_error lb r) as [lo|] eqn:Hlo; [|apply nth_error_None in Hlo; lia].
        apply (Hin r lo hi row x); auto.
  Qed.

  (** Two objectives, no row dominates another: in the box iff below the point. *)
  Lemma en_box_two front (point lb ub : vec) :
    is_matrix 2 front -> nan_free_m front -> nan_free point ->
    mutually_nondominated front ->
    en_bounds1 front 2 point = Ok (lb, ub) ->
    forall row, In row front -> (in_box row lb ub <-> vle row point).
  Proof.
    intros Hm Hf Hpf Hnd H row Hrow.
    destruct (en_bounds1_ok _ _ _ _ _ H) as (Hp & Hl & Hu & _).
    destruct (en_bounds1_spec _ _ _ _ _ Hm Hf H) as [Hspec Hbox].
    split; [|apply Hbox; auto].
    intros [Hlo Hhi].
    assert (Hlenr : length row = 2) by (unfold is_matrix in Hm; rewrite Forall_forall in Hm; auto).
    destruct row as [|x0 [|x1 [|? ?]]]; try discriminate.
    destruct point as [|z0 [|z1 [|? ?]]]; try discriminate.
    destruct lb as [|l0 [|l1 [|? ?]]]; try discriminate.
    destruct ub as [|u0 [|u1 [|? ?]]]; try discriminate.
    inversion Hlo as [|? ? ? ? A0 A1']; subst. inversion A1' as [|? ? ? ? A1 _]; subst.
    assert (Hxf : nisnan x0 = false /\ nisnan x1 = false).
    { unfold nan_free_m in Hf. rewrite Forall_forall in Hf. specialize (Hf _ Hrow).
      inversion Hf as [|? ? F0 F']; subst. inversion F'; subst. auto. }
    assert (Hzf : nisnan z0 = false /\ nisnan z1 = false).
    { inversion Hpf as [|? ? F0 F']; subst. inversion F'; subst. auto. }
    assert (E0 : nleb x0 z0 = true).
    { destruct (nleb x0 z0) eqn:E; auto. exfalso.
      destruct (Hspec 1 l1 u1 eq_refl eq_refl) as (_ & (c & Hc & Hok & Hc1) & _).
      assert (Hlc : length c = 2) by (unfold is_matrix in Hm; rewrite Forall_forall in Hm; auto).
      destruct c as [|c0 [|c1 [|? ?]]]; try discriminate. simpl in Hc1. injection Hc1 as ->.
      assert (Hc0 : nleb c0 z0 = true) by (apply (Hok 0); auto).
      assert (Hlt : nltb c0 x0 = true).
      { eapply (le_ltb_trans L); [exact Hc0|]. apply (leb_false_notnan L); tauto. }
      apply (ltb_true L) in Hlt. destruct Hlt as [Hlt1 Hlt2].
      apply (Hnd _ _ Hc Hrow). split.
      - constructor; auto.
      - intros Hrev. inversion Hrev; subst. congruence. }
    assert (E1 : nleb x1 z1 = true).
    { destruct (nleb x1 z1) eqn:E; auto. exfalso.
      destruct (Hspec 0 l0 u0 eq_refl eq_refl) as (_ & (c & Hc & Hok & Hc1) & _).
      assert (Hlc : length c = 2) by (unfold is_matrix in Hm; rewrite Forall_forall in Hm; auto).
      destruct c as [|c0 [|c1 [|? ?]]]; try discriminate. simpl in Hc1. injection Hc1 as ->.
      assert (Hc0 : nleb c1 z1 = true) by (apply (Hok 1); auto).
      assert (Hlt : nltb c1 x1 = true).
      { eapply (le_ltb_trans L); [exact Hc0|]. apply (leb_false_notnan L); tauto. }
      apply (ltb_true L) in Hlt. destruct Hlt as [Hlt1 Hlt2].
      apply (Hnd _ _ Hc Hrow). split.
      - constructor; auto.
      - intros Hrev. inversion Hrev as [|? ? ? ? R0 R1']; subst. inversion R1'; subst. congruence. }
    constructor; auto.
  Qed.
End Ord.
