(** * E-NAUTILUS: the lemmas behind the property theorems. *)
From Coq Require Import ZArith List Bool Lia Reals Lra Floats.
From Verif Require Import Num NumXR NumF64 Py Np Spec NpFacts XRFacts MENautilus PENautilus PENautilus2 PENautilus3.
Import ListNotations.

Lemma py_nth_of_nth {A} (l : list A) i x : (0 <= i)%Z -> nth_error l (Z.to_nat i) = Some x -> py_nth l i = Ok x.
Proof. intros Hi H. rewrite py_nth_nonneg by lia. apply at_ok. auto. Qed.
Lemma nth_of_py_nth {A} (l : list A) i x : (0 <= i)%Z -> py_nth l i = Ok x -> nth_error l (Z.to_nat i) = Some x.
Proof. intros Hi H. rewrite py_nth_nonneg in H by lia. apply at_ok in H. auto. Qed.

Lemma py_nth_mat {N : NumOps} k (m : list (list N)) i v : is_matrix k m -> py_nth m i = Ok v -> length v = k.
Proof. intros Hm H. apply py_nth_In in H. unfold is_matrix in Hm. rewrite Forall_forall in Hm. auto. Qed.

(** What one forward answer does, in the vocabulary of the property theorems. *)
Lemma forward_main :
  forall F nd k ideal vars s qs mi0 c0 km d i p s' mi c,
  Forall (fun r => length r = k) F -> length nd = k ->
  en_reach (xm F) ideal (xv nd) vars s qs ->
  is_matrix k (ec_lb c0) -> is_matrix k (ec_ub c0) ->
  d_step_back d = Some false -> d_index d = Some i -> (0 <= i)%Z ->
  nth_error (ec_points c0) (Z.to_nat i) = Some (xv p) -> length p = k ->
  en_iterate km (EReq mi0 c0) (Some d) s = (s', Ok (EReq mi c)) ->
  exists n lb ub ids,
    es_left s' = Some n /\
    nth_error (ec_lb c0) (Z.to_nat i) = Some lb /\ nth_error (ec_ub c0) (Z.to_nat i) = Some ub /\
    increasing ids /\ (forall j, In j ids <-> exists row, nth_error (xm F) j = Some row /\ in_box row lb ub) /\
    request_spec F nd k p n (fun j => In j ids) c /\
    (forall np, km_ok km -> es_npoints s = Some np -> (1 <= np)%Z ->
          Z.of_nat (length (ec_points c)) = Z.min np (Z.of_nat (length ids))).
Proof.
  intros F nd k ideal vars s qs mi0 c0 km d i p s' mi c HF Hnd Hr Hlb Hub Hsb Hi Hi0 Hp Hlp H.
  destruct (en_reach_data _ _ _ _ _ _ Hr) as (Ef & _ & En & _). cbn [en_iterate] in H.
  destruct (forward_exact F nd k HF Hnd km c0 d s s' (EReq mi c) p i) as [(n & _ & _ & Hst & _)|X]; auto.
  - apply py_nth_of_nth; auto.
  - intros lb. apply py_nth_mat; auto.
  - intros ub. apply py_nth_mat; auto.
  - apply en_stop_is_stop in Hst. destruct Hst as (o & x & Hst). discriminate.
  - destruct X as (n & n' & lb & ub & ids & mi' & c' & El & Hn & Hn' & El' & Elb & Eub & Hinc & Hids & Eq & Hreq & Hlen & Es).
    injection Eq as <- <-. exists n', lb, ub, ids. repeat split; auto; try (apply nth_of_py_nth; auto; fail);
      try apply Hids; try apply Hreq.
Qed.

Lemma first_request_points :
  forall F nd k ideal vars s qs i0 n0 km d s' q,
  Forall (fun r => length r = k) F -> length nd = k ->
  en_reach (xm F) ideal (xv nd) vars s qs -> In (EInit i0 n0) qs ->
  en_iterate km (EInit i0 n0) (Some d) s = (s', Ok q) ->
  exists mi c n zbars, q = EReq mi c /\
    option_map as_int (d_n_iterations d) = Some (Some n) /\ ec_left c = n /\ n <> 0%Z /\
    incl zbars F /\
    ec_points c = map (fun z => xv (rcomb (IZR (n - 1) / IZR n) nd (1 / IZR n) z)) zbars.
Proof.
  intros F nd k ideal vars s qs i0 n0 km d s' q HF Hnd Hr _ H. cbn [en_iterate] in H.
  destruct (en_reach_data _ _ _ _ _ _ Hr) as (Ef & _ & En & _).
  destruct (initial_exact F nd k HF Hnd km d s s' q) as (n & np & mi & c & Eni & _ & _ & _ & _ & _ & _ & _ & _ & -> & (Hn0 & El & _ & zb & Hzb & Ep & _) & _); auto.
  exists mi, c, n, zb. split; [reflexivity|]. split; [auto|]. split; [auto|]. split; [auto|]. split.
  - intros z Hz. rewrite Forall_forall in Hzb. destruct (Hzb z Hz) as (j & _ & Hj). eapply nth_error_In; eauto.
  - rewrite Ep. unfold xm. rewrite map_map. reflexivity.
Qed.

Lemma next_request_points :
  forall F nd k ideal vars s qs mi0 c0 km d i p s' mi c,
  Forall (fun r => length r = k) F -> length nd = k ->
  en_reach (xm F) ideal (xv nd) vars s qs -> In (EReq mi0 c0) qs ->
  is_matrix k (ec_lb c0) -> is_matrix k (ec_ub c0) ->
  d_step_back d = Some false -> d_index d = Some i -> (0 <= i)%Z ->
  nth_error (ec_points c0) (Z.to_nat i) = Some (xv p) -> length p = k ->
  en_iterate km (EReq mi0 c0) (Some d) s = (s', Ok (EReq mi c)) ->
  exists n zbars lb ub, ec_left c = n /\ n <> 0%Z /\
    nth_error (ec_lb c0) (Z.to_nat i) = Some lb /\ nth_error (ec_ub c0) (Z.to_nat i) = Some ub /\
    Forall (fun z => In z F /\ in_box (xv z) lb ub) zbars /\
    ec_points c = map (fun z => xv (rcomb (IZR (n - 1) / IZR n) p (1 / IZR n) z)) zbars.
Proof.
  intros F nd k ideal vars s qs mi0 c0 km d i p s' mi c HF Hnd Hr _ Hlb Hub Hsb Hi Hi0 Hp Hlp H.
  destruct (forward_main F nd k ideal vars s qs mi0 c0 km d i p s' mi c) as
    (n & lb & ub & ids & El' & Elb & Eub & Hinc & Hids & (Hn0 & El & _ & zb & Hzb & Ep & _) & _); auto.
  exists n, zb, lb, ub. repeat (split; [auto; fail|]). split.
  - eapply Forall_impl; [|exact Hzb]. intros z (j & Hj & Ej). split; [eapply nth_error_In; eauto|].
    apply Hids in Hj. destruct Hj as (row & Erow & Hbox). rewrite xm_nth, Ej in Erow. injection Erow as <-. auto.
  - rewrite Ep. unfold xm. rewrite map_map. reflexivity.
Qed.

Lemma last_points_on_front :
  forall F nd k ideal vars s qs mi0 c0 km d i p s' mi c,
  Forall (fun r => length r = k) F -> length nd = k ->
  en_reach (xm F) ideal (xv nd) vars s qs -> In (EReq mi0 c0) qs ->
  is_matrix k (ec_lb c0) -> is_matrix k (ec_ub c0) ->
  d_step_back d = Some false -> d_index d = Some i -> (0 <= i)%Z ->
  nth_error (ec_points c0) (Z.to_nat i) = Some (xv p) -> length p = k ->
  en_iterate km (EReq mi0 c0) (Some d) s = (s', Ok (EReq mi c)) ->
  ec_left c = 1%Z -> incl (ec_points c) (xm F).
Proof.
  intros F nd k ideal vars s qs mi0 c0 km d i p s' mi c HF Hnd Hr Hin Hlb Hub Hsb Hi Hi0 Hp Hlp H H1.
  destruct (next_request_points F nd k ideal vars s qs mi0 c0 km d i p s' mi c) as (n & zb & lb & ub & En & _ & _ & _ & Hz & Ep); auto.
  rewrite Ep. intros v Hv. apply in_map_iff in Hv. destruct Hv as (z & <- & Hzin).
  rewrite Forall_forall in Hz. destruct (Hz z Hzin) as [HzF _].
  rewrite H1 in En. subst n. change (In (xv (step_towards 1 p z)) (xm F)). rewrite step_towards_1; [apply in_map; auto|].
  rewrite Forall_forall in HF. rewrite (HF z); auto.
Qed.

Lemma number_of_points :
  forall F nd k ideal vars s qs mi0 c0 km d i p np s' mi c,
  Forall (fun r => length r = k) F -> length nd = k ->
  en_reach (xm F) ideal (xv nd) vars s qs -> In (EReq mi0 c0) qs ->
  is_matrix k (ec_lb c0) -> is_matrix k (ec_ub c0) ->
  d_step_back d = Some false -> d_index d = Some i -> (0 <= i)%Z ->
  nth_error (ec_points c0) (Z.to_nat i) = Some (xv p) -> length p = k ->
  km_ok km -> es_npoints s = Some np -> (1 <= np)%Z ->
  en_iterate km (EReq mi0 c0) (Some d) s = (s', Ok (EReq mi c)) ->
  exists lb ub ids, nth_error (ec_lb c0) (Z.to_nat i) = Some lb /\ nth_error (ec_ub c0) (Z.to_nat i) = Some ub /\
    increasing ids /\
    (forall j, In j ids <-> exists row, nth_error (xm F) j = Some row /\ in_box row lb ub) /\
    Z.of_nat (length (ec_points c)) = Z.min np (Z.of_nat (length ids)).
Proof.
  intros F nd k ideal vars s qs mi0 c0 km d i p np s' mi c HF Hnd Hr _ Hlb Hub Hsb Hi Hi0 Hp Hlp Hk Hnp Hnp1 H.
  destruct (forward_main F nd k ideal vars s qs mi0 c0 km d i p s' mi c) as
    (n & lb & ub & ids & El' & Elb & Eub & Hinc & Hids & _ & Hlen); auto.
  exists lb, ub, ids. repeat (split; [auto; fail|]). auto.
Qed.

(** The number of points asked for is what the method keeps. *)
Lemma npoints_of_initial {N : NumOps} (km : @km_oracle N) d s s' i0 n0 q :
  en_iterate km (EInit i0 n0) (Some d) s = (s', Ok q) ->
  exists np, option_map as_int (d_n_points d) = Some (Some np) /\ es_npoints s' = Some np.
Proof.
  intros H. cbn [en_iterate] in H.
  destruct (en_initial_ok _ _ _ _ _ H) as (ni & np & Eni & Enp & Es & (z & p & n & _ & _ & _ & _ & _ & _ & E & _)).
  exists z. rewrite Enp. subst s'. simpl in *. rewrite E. auto.
Qed.

Lemma first_number_of_points :
  forall F nd k ideal vars km d s s' i0 n0 q,
  Forall (fun r => length r = k) F -> length nd = k ->
  s = en_init (xm F) ideal (xv nd) vars -> km_ok km -> en_validate_init d = Ok tt ->
  en_iterate km (EInit i0 n0) (Some d) s = (s', Ok q) ->
  exists mi c np, q = EReq mi c /\ option_map as_int (d_n_points d) = Some (Some np) /\
    Z.of_nat (length (ec_points c)) = Z.min np (Z.of_nat (length F)).
Proof.
  intros F nd k ideal vars km d s s' i0 n0 q HF Hnd -> Hk Hv H. cbn [en_iterate] in H.
  destruct (initial_exact F nd k HF Hnd km d (en_init (xm F) ideal (xv nd) vars) s' q) as (n & np & mi & c & Eni & Enp & _ & _ & _ & _ & _ & _ & _ & -> & _ & Hlen); auto.
  exists mi, c, np. split; [auto|]. split; [auto|]. rewrite Hlen; auto.
  - simpl. rewrite seq_length, xm_length. reflexivity.
  - unfold en_validate_init in Hv. destruct (d_n_iterations d); [|discriminate].
    destruct (d_n_points d); [|discriminate]. destruct (as_int p); [|discriminate].
    destruct (z <? 1)%Z; [discriminate|]. simpl in Enp. injection Enp as Enp. rewrite Enp in Hv.
    destruct (Z.ltb_spec np 1); [discriminate|]. auto.
Qed.

Section Gen.
  Context {N : NumOps}.
  Implicit Types (km : @km_oracle N) (s : en_state N) (d : en_dict N) (c : en_content N) (q : en_request N).

  Lemma next_of_iterate km q0 d s s' mi c :
    (forall mi0 c0, q0 = EReq mi0 c0 -> d_step_back d = Some false) ->
    (forall o x, q0 <> EStop o x) ->
    en_iterate km q0 (Some d) s = (s', Ok (EReq mi c)) -> next_spec km s' (EReq mi c) /\ same_data s s'.
  Proof.
    intros Hsb Hns H. destruct q0 as [i0 n0|mi0 c0|o x].
    - cbn [en_iterate] in H. destruct (en_initial_ok _ _ _ _ _ H) as (ni & np & _ & _ & Es & Hn).
      split; auto. subst s'. repeat split; auto.
    - cbn [en_iterate] in H. destruct (en_forward_ok _ _ _ _ _ _ H (Hsb _ _ eq_refl)) as (i & p & n & _ & _ & _ & [(_ & _ & Hst)|(_ & lb & ub & ri & ch & n' & _ & _ & _ & _ & _ & Es & Hn)]).
      + apply en_stop_is_stop in Hst. destruct Hst as (o & x & Hst). discriminate.
      + split; auto. subst s'. repeat split; auto.
    - exfalso. eapply Hns; eauto.
  Qed.

  Lemma bounds_of_request (L : OrdLaws N) :
    forall k front ideal nadir vars s qs km q0 d s' mi c,
    @is_matrix N k front -> nan_free_m front -> length nadir = k ->
    en_reach front ideal nadir vars s qs -> In q0 qs ->
    (forall mi0 c0, q0 = EReq mi0 c0 -> d_step_back d = Some false) ->
    en_iterate km q0 (Some d) s = (s', Ok (EReq mi c)) ->
    length (ec_lb c) = length (ec_points c) /\ length (ec_ub c) = length (ec_points c) /\
    forall j z lb ub, nth_error (ec_points c) j = Some z ->
      nth_error (ec_lb c) j = Some lb -> nth_error (ec_ub c) j = Some ub ->
      length lb = k /\ length ub = k /\
      (forall r lo hi, nth_error lb r = Some lo -> nth_error ub r = Some hi ->
         nleb lo hi = true /\
         (exists row, In row front /\ ok_except r row z /\ nth_error row r = Some lo) /\
         (exists row, In row front /\ ok_except r row z /\ nth_error row r = Some hi) /\
         (forall row x, In row front -> ok_except r row z -> nth_error row r = Some x ->
            nleb lo x = true /\ nleb x hi = true)) /\
      (forall row, In row front -> vle row z -> in_box row lb ub).
  Proof.
    intros k front ideal nadir vars s qs km q0 d s' mi c Hm Hnf Hnd Hr Hin Hsb H.
    destruct (en_reach_data _ _ _ _ _ _ Hr) as (Ef & _ & En & _).
    destruct (next_of_iterate km q0 d s s' mi c) as [Hn (Ef' & _ & En' & _)]; auto.
    { intros o x ->. cbn [en_iterate] in H. discriminate. }
    destruct Hn as (np & p & n & zbars & zs & lbs & ubs & ds & mi' & _ & _ & _ & _ & _ & Eb & _ & _ & Eq).
    injection Eq as <- ->. cbn [ec_lb ec_ub ec_points].
    rewrite Ef', En', Ef, En, Hnd in Eb.
    destruct (en_bounds_ok _ _ _ _ _ Eb) as (F1 & F2 & Hb).
    split; [symmetry; eapply Forall2_len; eauto|]. split; [symmetry; eapply Forall2_len; eauto|].
    intros j z lb ub Ez El Eu. pose proof (Hb _ _ _ _ Ez El Eu) as Hb1.
    destruct (en_bounds1_ok _ _ _ _ _ Hb1) as (_ & L1 & L2 & _).
    split; auto. split; auto. apply (en_bounds1_spec L k front z lb ub); auto.
  Qed.

  Lemma issued_request km q0 d s s_old mi c :
    en_iterate km q0 (Some d) s = (s_old, Ok (EReq mi c)) ->
    es_left s_old = Some (ec_left c) /\ ec_ideal c = es_ideal s_old /\ ec_nadir c = es_nadir s_old /\
    en_max_index (ec_points c) = Ok mi.
  Proof.
    intros H. destruct q0 as [i0 n0|mi0 c0|o x].
    - destruct (next_of_iterate km (EInit i0 n0) d s s_old mi c) as [Hn _]; auto; try discriminate.
      destruct Hn as (np & p & n & zbars & zs & lbs & ubs & ds & mi' & _ & _ & El & _ & _ & Eb & _ & Em & Eq).
      injection Eq as <- ->. auto.
    - destruct (d_step_back d) as [[]|] eqn:Esb.
      + cbn [en_iterate] in H. destruct (en_back_ok _ _ _ _ _ _ H Esb) as (zs & lbs & ubs & n & ds & mi' & _ & _ & _ & _ & _ & Em & -> & Eq).
        injection Eq as <- ->. auto.
      + destruct (next_of_iterate km (EReq mi0 c0) d s s_old mi c) as [Hn _]; auto; try discriminate.
        destruct Hn as (np & p & n & zbars & zs & lbs & ubs & ds & mi' & _ & _ & El & _ & _ & Eb & _ & Em & Eq).
        injection Eq as <- ->. auto.
      + cbn [en_iterate] in H. unfold en_handle_request in H. rewrite Esb in H. discriminate.
    - discriminate.
  Qed.

  Lemma step_back_faithful s_old s mi c mi2 c2 dback :
    es_left s_old = Some (ec_left c) -> ec_ideal c = es_ideal s_old -> ec_nadir c = es_nadir s_old ->
    en_max_index (ec_points c) = Ok mi ->
    en_later s_old s ->
    d_step_back dback = Some true ->
    d_prev_solutions dback = Some (ec_points c) -> d_prev_lb dback = Some (ec_lb c) -> d_prev_ub dback = Some (ec_ub c) ->
    d_iterations_left dback = Some (ec_left c) -> d_prev_dist dback = Some (ec_dist c) ->
    exists s', (forall km, en_iterate km (EReq mi2 c2) (Some dback) s = (s', Ok (EReq mi c))) /\
      forall km d, d_step_back d = Some false ->
        snd (en_iterate km (EReq mi c) (Some d) s') = snd (en_iterate km (EReq mi c) (Some d) s_old).
  Proof.
    intros El Ei En Em Hl Hsb H1 H2 H3 H4 H5.
    destruct (en_later_data _ _ Hl) as [Hsd Hnp].
    exists (set_left (Some (ec_left c)) s). split.
    - intros km. cbn [en_iterate]. unfold en_handle_request. rewrite Hsb, H1, H2, H3, H4, H5.
      destruct Hsd as (A & B & C & D).
      unfold sbind, lift, smod, sget. simpl. unfold en_mk_request, rmap. cbn [ec_points]. rewrite Em. simpl.
      f_equal. f_equal. f_equal. destruct c; simpl in *. congruence.
    - intros km d Hd. cbn [en_iterate]. symmetry. apply en_forward_depends; auto.
  Qed.

  Lemma accepted_index_iff (points : list (list N)) mi d i :
    en_max_index points = Ok mi -> d_index d = Some i -> d_step_back d = Some false -> d_change d = Some false ->
    (en_validate_req mi d = Ok tt <->
     (0 <= i <= match points with [r] => Z.of_nat (length r) | _ => Z.of_nat (length points) end)%Z).
  Proof.
    intros Hm Hi Hsb Hch. unfold en_validate_req. rewrite Hi, Hsb, Hch. cbn [negb].
    assert (E : Z.of_nat mi = match points with [r] => Z.of_nat (length r) | _ => Z.of_nat (length points) end).
    { unfold en_max_index in Hm. destruct points as [|r [|r2 l]].
      - injection Hm as <-. auto.
      - destruct (Nat.eqb (length r) 1); [discriminate|]. injection Hm as <-. auto.
      - injection Hm as <-. auto. }
    rewrite <- E. destruct (Z.ltb_spec i 0), (Z.ltb_spec (Z.of_nat mi) i); simpl; split; intros; try discriminate; try lia; auto.
  Qed.

  Lemma bad_index_changes_nothing km mi c d s i :
    d_step_back d = Some false -> d_index d = Some i ->
    (Z.of_nat (length (ec_points c)) <= i)%Z ->
    en_iterate km (EReq mi c) (Some d) s = (s, Raise IndexErr).
  Proof.
    intros Hsb Hi Hlen. cbn [en_iterate]. unfold en_handle_request. rewrite Hsb, Hi.
    assert (E : py_nth (ec_points c) i = Raise IndexErr).
    { rewrite py_nth_nonneg by lia. unfold at_. destruct (nth_error (ec_points c) (Z.to_nat i)) eqn:E; auto.
      assert (Z.to_nat i < length (ec_points c)) by (apply nth_error_Some; congruence). lia. }
    unfold sbind, lift. simpl. rewrite E. reflexivity.
  Qed.

  Lemma index_validation_refuted s km c mi d :
    2 <= length (ec_points c) -> en_max_index (ec_points c) = Ok mi ->
    d_index d = Some (Z.of_nat (length (ec_points c))) -> d_step_back d = Some false -> d_change d = Some false ->
    en_validate_req mi d = Ok tt /\ en_iterate km (EReq mi c) (Some d) s = (s, Raise IndexErr).
  Proof.
    intros Hlen Hm Hi Hsb Hch. split.
    - apply (accepted_index_iff (ec_points c) mi d _ Hm Hi Hsb Hch).
      destruct (ec_points c) as [|r [|r2 l]]; simpl in *; lia.
    - eapply bad_index_changes_nothing; eauto. lia.
  Qed.

  Lemma valid_index_accepted (points : list (list N)) mi d i :
    en_max_index points = Ok mi -> d_index d = Some i -> d_step_back d = Some false -> d_change d = Some false ->
    (0 <= i < Z.of_nat (length points))%Z -> en_validate_req mi d = Ok tt.
  Proof.
    intros Hm Hi Hsb Hch Hr. apply (accepted_index_iff points mi d _ Hm Hi Hsb Hch).
    destruct points as [|r [|r2 l]]; cbn [length] in *; try lia.
  Qed.

  Lemma new_count_used km mi0 c0 d s s' mi c :
    d_step_back d = Some false -> d_change d = Some true ->
    en_iterate km (EReq mi0 c0) (Some d) s = (s', Ok (EReq mi c)) ->
    d_iterations_left d = Some (ec_left c) /\ es_left s' = Some (ec_left c) /\ ec_left c <> 0%Z.
  Proof.
    intros Hsb Hch H. cbn [en_iterate] in H.
    destruct (en_forward_ok _ _ _ _ _ _ H Hsb) as (i & p & n & _ & _ & _ & [(_ & _ & Hst)|(_ & lb & ub & ri & ch & n' & _ & _ & _ & Ec & En' & Es & Hn)]).
    - apply en_stop_is_stop in Hst. destruct Hst as (o & x & Hst). discriminate.
    - rewrite Hch in Ec. injection Ec as <-.
      destruct Hn as (np & p' & n2 & zbars & zs & lbs & ubs & ds & mi' & _ & _ & El & _ & Ei & _ & _ & _ & Eq).
      injection Eq as <- ->. cbn [ec_left]. split; [|split; auto].
      + subst s'. simpl in El. congruence.
      + intros ->. unfold en_intermediate in Ei. discriminate.
  Qed.

  Lemma documented_key_refuted mi d i n :
    d_index d = Some i -> d_step_back d = Some false -> d_change d = Some true ->
    d_new_iterations_left d = Some n -> d_iterations_left d = None ->
    en_validate_req mi d = Raise MethodExn.
  Proof.
    intros Hi Hsb Hch _ Hn. unfold en_validate_req. rewrite Hi, Hsb, Hch, Hn. simpl.
    destruct ((i <? 0)%Z || (Z.of_nat mi <? i)%Z); auto.
  Qed.

  Lemma initial_validation d :
    (en_validate_init d = Ok tt <->
     exists ni np zi zp, d_n_iterations d = Some ni /\ d_n_points d = Some np /\
       as_int ni = Some zi /\ as_int np = Some zp /\ (1 <= zi)%Z /\ (1 <= zp)%Z) /\
    (en_validate_init d <> Ok tt -> en_validate_init d = Raise MethodExn).
  Proof.
    unfold en_validate_init. split.
    - split.
      + destruct (d_n_iterations d) as [ni|]; [|discriminate]. destruct (d_n_points d) as [np|]; [|discriminate].
        destruct (as_int ni) as [zi|] eqn:E1; [|discriminate]. destruct (Z.ltb_spec zi 1); [discriminate|].
        destruct (as_int np) as [zp|] eqn:E2; [|discriminate]. destruct (Z.ltb_spec zp 1); [discriminate|].
        intros _. exists ni, np, zi, zp. auto 10.
      + intros (ni & np & zi & zp & -> & -> & -> & -> & H1 & H2).
        destruct (Z.ltb_spec zi 1); [lia|]. destruct (Z.ltb_spec zp 1); [lia|]. auto.
    - destruct (d_n_iterations d) as [ni|]; auto. destruct (d_n_points d) as [np|]; auto.
      destruct (as_int ni) as [zi|]; auto. destruct (Z.ltb_spec zi 1); auto.
      destruct (as_int np) as [zp|]; auto. destruct (Z.ltb_spec zp 1); auto. contradiction.
  Qed.

  Lemma no_response_changes_nothing km q s :
    ~ is_stop q -> en_iterate km q None s = (s, Raise TypeErr).
  Proof. intros H. destruct q; try reflexivity. exfalso. apply H. red. eauto. Qed.
End Gen.

Lemma ctor_spec front_shape ideal_shape nadir_shape n_names :
  (en_ctor_check front_shape ideal_shape nadir_shape n_names = Ok tt <->
   exists rows k rest, front_shape = [rows; k] /\ ideal_shape = k :: rest /\ nadir_shape = ideal_shape /\
     (n_names = None \/ n_names = Some 0 \/ n_names = Some k)) /\
  (en_ctor_check front_shape ideal_shape nadir_shape n_names = Raise IndexErr <->
   exists rows k, front_shape = [rows; k] /\ ideal_shape = []) /\
  (en_ctor_check front_shape ideal_shape nadir_shape n_names <> Ok tt ->
   ideal_shape <> [] -> en_ctor_check front_shape ideal_shape nadir_shape n_names = Raise MethodExn).
Proof.
  unfold en_ctor_check.
  destruct front_shape as [|rows [|k [|]]];
    try (split; [split; [discriminate|intros (a & b & c & H & _); discriminate]|
         split; [split; [discriminate|intros (a & b & H & _); discriminate]|auto]]; fail).
  destruct ideal_shape as [|k' rest].
  { split; [split; [discriminate|intros (a & b & c & _ & H & _); discriminate]|].
    split; [split; eauto|]. intros _ H; contradiction. }
  destruct (Nat.eqb_spec k' k) as [->|Hk]; cbn [negb].
  2:{ split; [split; [discriminate|intros (a & b & c & H & H' & _); congruence]|].
      split; [split; [discriminate|intros (a & b & _ & H'); discriminate]|auto]. }
  destruct (list_eq_dec Nat.eq_dec (k :: rest) nadir_shape) as [<-|Hne]; cbn [negb].
  2:{ split; [split; [discriminate|intros (a & b & c & H & H' & H'' & _); congruence]|].
      split; [split; [discriminate|intros (a & b & _ & H'); discriminate]|auto]. }
  destruct n_names as [[|n]|].
  - split; [split; [intros _; exists rows, k, rest; auto 10|auto]|].
    split; [split; [discriminate|intros (a & b & _ & H'); discriminate]|]. intros H; contradiction.
  - destruct (Nat.eqb_spec (S n) k) as [E|E]; cbn [negb].
    + split; [split; [intros _; exists rows, k, rest; subst; auto 10|auto]|].
      split; [split; [discriminate|intros (a & b & _ & H'); discriminate]|]. intros H; contradiction.
    + split; [split; [discriminate|intros (a & b & c & H & H' & H'' & [X|[X|X]]); try discriminate; congruence]|].
      split; [split; [discriminate|intros (a & b & _ & H'); discriminate]|auto].
  - split; [split; [intros _; exists rows, k, rest; auto 10|auto]|].
    split; [split; [discriminate|intros (a & b & _ & H'); discriminate]|]. intros H; contradiction.
Qed.

(** ** Final solution (C06) *)
Lemma final_solution :
  forall F nd k ideal vars s qs mi0 c0 km d i p s1 mi c km2 d2 s2 obj sol,
  Forall (fun r => length r = k) F -> length nd = k ->
  en_reach (xm F) ideal (xv nd) vars s qs -> In (EReq mi0 c0) qs ->
  is_matrix k (ec_lb c0) -> is_matrix k (ec_ub c0) ->
  d_step_back d = Some false -> d_index d = Some i -> (0 <= i)%Z ->
  nth_error (ec_points c0) (Z.to_nat i) = Some (xv p) -> length p = k ->
  en_iterate km (EReq mi0 c0) (Some d) s = (s1, Ok (EReq mi c)) ->
  ec_left c = 1%Z ->
  d_step_back d2 = Some false ->
  en_iterate km2 (EReq mi c) (Some d2) s1 = (s2, Ok (EStop obj sol)) ->
  exists row, In row F /\ obj = xv row /\
    (exists i2, d_index d2 = Some i2 /\ py_nth (ec_points c) i2 = Ok obj) /\
    match vars with
    | None => sol = None
    | Some V => exists j x, nth_error F j = Some row /\ nth_error V j = Some x /\ sol = Some x
    end.
Proof.
  intros F nd k ideal vars s qs mi0 c0 km d i p s1 mi c km2 d2 s2 obj sol HF Hnd Hr Hin Hlb Hub Hsb Hi Hi0 Hp Hlp H H1 Hsb2 H2.
  pose proof (last_points_on_front F nd k ideal vars s qs mi0 c0 km d i p s1 mi c HF Hnd Hr Hin Hlb Hub Hsb Hi Hi0 Hp Hlp H H1) as Hincl.
  destruct (en_reach_data _ _ _ _ _ _ Hr) as (Ef & _ & En & Ev).
  pose proof (en_iterate_same_data km (EReq mi0 c0) (Some d) s) as Hsd. rewrite H in Hsd. destruct Hsd as (Ef1 & _ & En1 & Ev1).
  cbn [fst] in *. cbn [en_iterate] in H2.
  destruct (en_forward_ok _ _ _ _ _ _ H2 Hsb2) as (i2 & y & n & Ei2 & Ey & _ & [(_ & Es2 & Hst)|(_ & lb & ub & ri & ch & n' & _ & _ & _ & _ & _ & _ & Hn)]).
  - pose proof (Hincl y (py_nth_In _ _ _ Ey)) as Hy. apply in_map_iff in Hy. destruct Hy as (row & <- & Hrow).
    destruct (In_nth_error _ _ Hrow) as [j Hj].
    destruct (en_stop_exact F k HF s2 row (EStop obj sol) j) as (sol' & Eq & Hv); auto.
    { subst s2. simpl. congruence. }
    injection Eq as -> ->. exists row. split; auto. split; auto. split; [eauto|].
    assert (E : es_vars s2 = vars) by (subst s2; simpl; congruence). rewrite E in Hv. exact Hv.
  - destruct Hn as (np & p' & n2 & zbars & zs & lbs & ubs & ds & mi' & _ & _ & _ & _ & _ & _ & _ & _ & Eq). discriminate.
Qed.

(** ** Distances (C07) *)
Lemma pct_pos y z nd : length z = length nd -> z <> nd -> pct y z nd = Fin (100 * rdist y nd / rdist z nd).
Proof.
  intros HL Hne. unfold pct.
  assert (Hd : rdist z nd <> 0%R) by (intros E; apply rdist_0 in E; auto).
  cbn [ndiv nmul nofZ XR]. rewrite xdiv_fin by auto. cbn. f_equal. field. auto.
Qed.

Lemma first_distance :
  forall F nd k ideal vars s qs i0 n0 km d s' mi c,
  Forall (fun r => length r = k) F -> length nd = k ->
  en_reach (xm F) ideal (xv nd) vars s qs -> In (EInit i0 n0) qs ->
  en_validate_init d = Ok tt ->
  en_iterate km (EInit i0 n0) (Some d) s = (s', Ok (EReq mi c)) ->
  exists n zbars, option_map as_int (d_n_iterations d) = Some (Some n) /\ incl zbars F /\
    ec_points c = map (fun z => xv (rcomb (IZR (n - 1) / IZR n) nd (1 / IZR n) z)) zbars /\
    Forall2 (fun z dist => if list_eq_dec Req_EM_T z nd then dist = XNan else dist = Fin (100 / IZR n)) zbars (ec_dist c).
Proof.
  intros F nd k ideal vars s qs i0 n0 km d s' mi c HF Hnd Hr _ Hv H. cbn [en_iterate] in H.
  destruct (en_reach_data _ _ _ _ _ _ Hr) as (Ef & _ & En & _).
  destruct (initial_exact F nd k HF Hnd km d s s' (EReq mi c)) as (n & np & mi' & c' & Eni & Enp & _ & _ & _ & _ & _ & _ & _ & Eq & (Hn0 & El & _ & zb & Hzb & Ep & Ed & _) & _); auto.
  injection Eq as <- <-. exists n, zb. split; [auto|].
  assert (Hincl : incl zb F).
  { intros z Hz. rewrite Forall_forall in Hzb. destruct (Hzb z Hz) as (j & _ & Hj). eapply nth_error_In; eauto. }
  split; [auto|]. split.
  { rewrite Ep. unfold xm. rewrite map_map. reflexivity. }
  assert (Hn1 : (1 <= n)%Z).
  { destruct (initial_validation d) as [[Hd _] _]. destruct (Hd Hv) as (ni & np' & zi & zp & E1 & E2 & E3 & E4 & E5 & E6).
    rewrite E1 in Eni. simpl in Eni. congruence. }
  rewrite Ed. clear Ed Ep Hzb. induction zb as [|z zb IH]; cbn [map]; constructor.
  2:{ apply IH. intros x Hx. apply Hincl. right; auto. }
  assert (Hz : length z = k) by (rewrite Forall_forall in HF; apply HF, Hincl; left; auto).
  assert (HnR : (0 < IZR n)%R) by (apply IZR_lt; lia).
  assert (Hst : step_towards n nd z = rcomb (1 - 1 / IZR n) nd (1 / IZR n) z).
  { unfold step_towards. f_equal. rewrite minus_IZR. field. lra. }
  assert (Hdist : rdist (step_towards n nd z) nd = (1 / IZR n * rdist z nd)%R).
  { rewrite Hst. apply rdist_comb; [|congruence]. apply Rlt_le. apply Rdiv_lt_0_compat; lra. }
  destruct (list_eq_dec Req_EM_T z nd) as [->|Hne].
  - unfold pct. rewrite Hdist. rewrite (proj2 (rdist_0 nd nd eq_refl) eq_refl). rewrite Rmult_0_r.
    cbn [ndiv nmul nofZ XR]. unfold xdiv.
    destruct (Req_EM_T 0 0) as [_|X]; [|exfalso; auto]. unfold xsign.
    destruct (Rlt_dec 0 0); [lra|]. reflexivity.
  - rewrite pct_pos by (auto; congruence). f_equal. rewrite Hdist. field.
    split; [lra|]. intros E. apply rdist_0 in E; auto; congruence.
Qed.

Lemma next_distance :
  forall F nd k ideal vars s qs mi0 c0 km d i p s' mi c,
  Forall (fun r => length r = k) F -> length nd = k ->
  en_reach (xm F) ideal (xv nd) vars s qs -> In (EReq mi0 c0) qs ->
  is_matrix k (ec_lb c0) -> is_matrix k (ec_ub c0) ->
  d_step_back d = Some false -> d_index d = Some i -> (0 <= i)%Z ->
  nth_error (ec_points c0) (Z.to_nat i) = Some (xv p) -> length p = k ->
  en_iterate km (EReq mi0 c0) (Some d) s = (s', Ok (EReq mi c)) ->
  exists zbars, incl zbars F /\
    Forall2 (fun z y => y = xv (rcomb (IZR (ec_left c - 1) / IZR (ec_left c)) p (1 / IZR (ec_left c)) z)) zbars (ec_points c) /\
    Forall2 (fun z dist => z <> nd ->
       dist = Fin (100 * rdist (rcomb (IZR (ec_left c - 1) / IZR (ec_left c)) p (1 / IZR (ec_left c)) z) nd / rdist z nd) /\
       (ec_left c = 1%Z -> dist = Fin 100)) zbars (ec_dist c).
Proof.
  intros F nd k ideal vars s qs mi0 c0 km d i p s' mi c HF Hnd Hr _ Hlb Hub Hsb Hi Hi0 Hp Hlp H.
  destruct (forward_main F nd k ideal vars s qs mi0 c0 km d i p s' mi c) as
    (n & lb & ub & ids & El' & Elb & Eub & Hinc & Hids & (Hn0 & El & _ & zb & Hzb & Ep & Ed & _) & _); auto.
  assert (Hincl : incl zb F).
  { intros z Hz. rewrite Forall_forall in Hzb. destruct (Hzb z Hz) as (j & _ & Hj). eapply nth_error_In; eauto. }
  exists zb. split; [auto|]. rewrite El. split.
  - rewrite Ep. clear. induction zb as [|z zb IH]; cbn [map xm]; constructor; auto.
  - rewrite Ed. clear Ed Ep Hzb. induction zb as [|z zb IH]; cbn [map]; constructor.
    2:{ apply IH. intros x Hx. apply Hincl. right; auto. }
    assert (Hz : length z = k) by (rewrite Forall_forall in HF; apply HF, Hincl; left; auto).
    intros Hne. rewrite pct_pos by (auto; congruence). split; auto.
    intros ->. rewrite step_towards_1 by congruence. f_equal. field.
    intros E. apply rdist_0 in E; auto; congruence.
Qed.

(** ** Witnesses computed with IEEE doubles *)
Local Open Scope float_scope.
Definition ed0 (ni np : Z) : en_dict F64 := MkED (Some (VInt ni)) (Some (VInt np)) None None None None None None None None None.
Definition edi (i : Z) (ch : bool) (left : option Z) : en_dict F64 :=
  MkED None None (Some i) (Some false) (Some ch) left None None None None None.
Definition km_none : @km_oracle F64 := fun rows n => Ok (seq 0 (Z.to_nat n)).
Definition get_c (r : en_state F64 * res (en_request F64)) : en_content F64 :=
  match snd r with Ok (EReq _ c) => c | _ => MkEC [] [] [] [] [] 0 [] end.
Definition get_mi (r : en_state F64 * res (en_request F64)) : nat :=
  match snd r with Ok (EReq mi _) => mi | _ => 0 end.

(** Boolean views, so that only booleans are computed. *)
Definition is_req (r : en_state F64 * res (en_request F64)) : bool :=
  match snd r with Ok (EReq _ _) => true | _ => false end.
Lemma is_req_eq r : is_req r = true -> r = (fst r, Ok (EReq (get_mi r) (get_c r))).
Proof. destruct r as [s [[| |]|]]; intros H; try discriminate. reflexivity. Qed.
Definition is_zerodiv (r : en_state F64 * res (en_request F64)) : bool :=
  match snd r with Raise ZeroDivErr => true | _ => false end.
Lemma is_zerodiv_eq r : is_zerodiv r = true -> r = (fst r, Raise ZeroDivErr).
Proof. destruct r as [s [|[]]]; intros H; try discriminate. reflexivity. Qed.

Definition wf2 : list (list F64) := [[0; 2]; [1; 1]; [2; 0]].
Definition ws2 := en_init wf2 [0; 0] [2; 2] None.
Definition wr2 := en_iterate km_none (en_start ws2) (Some (ed0 2 5)) ws2.

Lemma zero_iterations_refuted :
  exists (s s' : en_state F64) km mi c d,
    en_validate_req mi d = Ok tt /\ d_iterations_left d = Some 0%Z /\
    (exists km0 d0 s0, en_iterate km0 (en_start s0) (Some d0) s0 = (s, Ok (EReq mi c))) /\
    en_iterate km (EReq mi c) (Some d) s = (s', Raise ZeroDivErr) /\
    es_left s' = Some 0%Z /\ es_left s = Some 2%Z.
Proof.
  exists (fst wr2), (fst (en_iterate km_none (EReq (get_mi wr2) (get_c wr2)) (Some (edi 0 true (Some 0%Z))) (fst wr2))),
    km_none, (get_mi wr2), (get_c wr2), (edi 0 true (Some 0%Z)).
  split; [vm_compute; reflexivity|]. split; [reflexivity|]. split.
  { exists km_none, (ed0 2 5), ws2. apply is_req_eq. vm_compute; reflexivity. }
  split; [apply is_zerodiv_eq; vm_compute; reflexivity|]. split; vm_compute; reflexivity.
Qed.

Definition wf3 : list (list F64) := [[1; 3; 0]; [2; 2; 2]; [4; 2; 1]; [0; 4; 1]].
Definition ws3 := en_init wf3 [0; 2; 0] [4; 4; 2] None.
Definition wr3 := en_iterate km_none (en_start ws3) (Some (ed0 2 5)) ws3.
Definition wr3' := en_iterate km_none (EReq (get_mi wr3) (get_c wr3)) (Some (edi 2 false None)) (fst wr3).

Lemma three_objective_refuted :
  exists (front : list (list F64)) ideal nadir s0 km d0 s1 mi c d1 s2 mi2 c2 p y,
    mutually_nondominated front /\ Forall (fun r => vle r nadir /\ vle ideal r) front /\
    s0 = en_init front ideal nadir None /\
    en_validate_init d0 = Ok tt /\
    en_iterate km (en_start s0) (Some d0) s0 = (s1, Ok (EReq mi c)) /\
    en_validate_req mi d1 = Ok tt /\ d_step_back d1 = Some false /\
    py_nth (ec_points c) (match d_index d1 with Some i => i | None => (-1)%Z end) = Ok p /\
    en_iterate km (EReq mi c) (Some d1) s1 = (s2, Ok (EReq mi2 c2)) /\
    In y (ec_points c2) /\ ~ vle y p.
Proof.
  exists wf3, [0; 2; 0], [4; 4; 2], ws3, km_none, (ed0 2 5), (fst wr3), (get_mi wr3), (get_c wr3), (edi 2 false None).
  exists (fst wr3'), (get_mi wr3'), (get_c wr3'), (nth 2 (ec_points (get_c wr3)) []), (nth 1 (ec_points (get_c wr3')) []).
  split; [apply (@mndb_ok F64); vm_compute; reflexivity|].
  split.
  { repeat (constructor; [split; apply (@vleb_iff F64); vm_compute; reflexivity|]). constructor. }
  split; [reflexivity|]. split; [reflexivity|]. split; [apply is_req_eq; vm_compute; reflexivity|]. split; [vm_compute; reflexivity|].
  split; [reflexivity|].
  split; [apply (py_nth_of_nth (ec_points (get_c wr3)) 2); [lia|apply (nth_error_nth' _ []); vm_compute; lia]|].
  split; [apply is_req_eq; vm_compute; reflexivity|].
  split; [apply nth_In; vm_compute; lia|].
  apply (@vleb_false F64). vm_compute. reflexivity.
Qed.

(** Numbers of points, any arithmetic. *)
Lemma intermediate_len {N : NumOps} (p : list N) zb n zs : en_intermediate p zb n = Ok zs -> length zs = length zb.
Proof.
  unfold en_intermediate. destruct (n =? 0)%Z; [discriminate|]. intros H. apply rseq_map_ok in H.
  induction H; cbn; auto.
Qed.
Lemma number_of_points_any {N : NumOps} (front : list (list N)) k ideal nadir vars s qs mi0 c0 km d i np s' mi c :
  is_matrix k front ->
  en_reach front ideal nadir vars s qs -> In (EReq mi0 c0) qs ->
  is_matrix k (ec_lb c0) -> is_matrix k (ec_ub c0) ->
  d_step_back d = Some false -> d_index d = Some i -> (0 <= i)%Z ->
  km_ok km -> es_npoints s = Some np -> (1 <= np)%Z ->
  en_iterate km (EReq mi0 c0) (Some d) s = (s', Ok (EReq mi c)) ->
  exists lb ub ids, nth_error (ec_lb c0) (Z.to_nat i) = Some lb /\ nth_error (ec_ub c0) (Z.to_nat i) = Some ub /\
    increasing ids /\
    (forall j, In j ids <-> exists row, nth_error front j = Some row /\ in_box row lb ub) /\
    Z.of_nat (length (ec_points c)) = Z.min np (Z.of_nat (length ids)).
Proof.
  intros Hm Hr _ Hlb Hub Hsb Hi Hi0 Hk Hnp Hnp1 H. cbn [en_iterate] in H.
  destruct (en_reach_data _ _ _ _ _ _ Hr) as (Ef & _ & _ & _).
  destruct (en_forward_ok _ _ _ _ _ _ H Hsb) as (i' & p & n & Ei & _ & _ & [(_ & _ & Hst)|(_ & lb & ub & ri & ch & n' & El & Eu & Ere & _ & _ & Es & Hn)]).
  { apply en_stop_is_stop in Hst. destruct Hst as (o & x & Hst). discriminate. }
  assert (i' = i) by congruence. subst i'.
  rewrite py_nth_nonneg in El by lia; apply at_ok in El. rewrite py_nth_nonneg in Eu by lia; apply at_ok in Eu.
  assert (Ll : length lb = k) by (unfold is_matrix in Hlb; rewrite Forall_forall in Hlb; apply Hlb; eapply nth_error_In; eauto).
  assert (Lu : length ub = k) by (unfold is_matrix in Hub; rewrite Forall_forall in Hub; apply Hub; eapply nth_error_In; eauto).
  rewrite Ef in Ere. destruct (en_reachable_spec k front lb ub Hm Ll Lu) as (idx & E & Hinc & Hids). rewrite E in Ere. injection Ere as <-.
  exists lb, ub, (idx_list idx). split; auto. split; auto. split; auto. split; auto.
  destruct Hn as (np' & p' & n2 & zb & zs & lbs & ubs & ds & mi' & Enp & _ & _ & Er & Ei' & _ & _ & _ & Eq).
  subst s'. cbn in Enp, Er. assert (np' = np) by congruence. subst np'. injection Eq as _ ->. cbn [ec_points].
  rewrite (intermediate_len _ _ _ _ Ei'). apply (en_representatives_spec _ _ _ _ _ Hk Hnp1 Er).
Qed.
Lemma first_number_of_points_any {N : NumOps} (front : list (list N)) ideal nadir vars km d s s' i0 n0 q :
  s = en_init front ideal nadir vars -> km_ok km -> en_validate_init d = Ok tt ->
  en_iterate km (EInit i0 n0) (Some d) s = (s', Ok q) ->
  exists mi c np, q = EReq mi c /\ option_map as_int (d_n_points d) = Some (Some np) /\
    Z.of_nat (length (ec_points c)) = Z.min np (Z.of_nat (length front)).
Proof.
  intros -> Hk Hv H. cbn [en_iterate] in H.
  destruct (en_initial_ok _ _ _ _ _ H) as (ni & np & Eni & Enp & Es & Hn).
  destruct Hn as (np' & p' & n2 & zb & zs & lbs & ubs & ds & mi' & Enp' & _ & _ & Er & Ei' & _ & _ & _ & Eq).
  assert (Hnp : option_map as_int (d_n_points d) = Some (Some np')) by (rewrite Enp; subst s'; cbn in *; congruence).
  eexists _, _, np'. split; [exact Eq|]. split; auto. cbn [ec_points]. rewrite (intermediate_len _ _ _ _ Ei').
  subst s'. cbn in Er.
  destruct (initial_validation d) as [[Hd _] _]. destruct (Hd Hv) as (ni1 & np1 & zi & zp & E1 & E2 & E3 & E4 & E5 & E6).
  assert (np' = zp) by (rewrite E2 in Hnp; cbn in Hnp; congruence). subst np'.
  destruct (en_representatives_spec _ _ _ _ _ Hk E6 Er) as [_ E]. rewrite E. cbn. rewrite seq_length. reflexivity.
Qed.
