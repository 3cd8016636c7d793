(** * E-NAUTILUS with IEEE doubles: rounding. *)
From Coq Require Import ZArith List Bool Lia Reals Lra Floats.
From Flocq Require Import Core.
From Verif Require Import Num NumXR NumF64 Py Np Spec NpFacts XRFacts MENautilus PENautilus PENautilus2 PENautilus3 PENautilus4 F64Sums F64Step SFloat F64Vec.
Import ListNotations.
Local Open Scope R_scope.

Section Doubles.
  Variables (F : list (list F64)) (nd : list F64) (k : nat).
  Hypothesis HF : Forall (fun r => length r = k) F.
  Hypothesis Hnd : length nd = k.

  (** What the method shows, operation by operation. *)
  Definition shown_doubles (p : list F64) (n : Z) (c : en_content F64) : Prop :=
    ec_left c = n /\
    exists zb, incl zb F /\
      ec_points c = map (zipw (fstep n) p) zb /\
      ec_dist c = map (fun z => fpct (zipw (fstep n) p z) z nd) zb.

  Lemma en_intermediate_f (p : list F64) (zb : list (list F64)) n zs :
    Forall (fun z => length p = length z) zb -> en_intermediate p zb n = Ok zs -> zs = map (zipw (fstep n) p) zb.
  Proof.
    intros HL H. unfold en_intermediate in H. destruct (Z.eqb_spec n 0) as [|Hn]; [discriminate|].
    apply rseq_map_ok in H. revert zs H. induction zb as [|z zb IH]; intros zs H; simpl in H; inversion H as [|? y ? l' Hy Hl]; subst.
    - reflexivity.
    - cbn [map]. f_equal; [|apply IH; auto; apply (Forall_inv_tail HL)].
      apply step_vec; auto. apply (Forall_inv HL).
  Qed.
  Lemma bsub_f (v w : list F64) : length v = length w -> bcast2 (@nsub F64) v w = Ok (fsub v w).
  Proof. intros L. rewrite bcast2_eq by auto. reflexivity. Qed.
  Lemma rsub_rows_f (pts : list (list F64)) :
    Forall (fun z => length z = length nd) pts -> rseq (map (fun z : list F64 => bcast2 nsub z nd) pts) = Ok (map (fun z => fsub z nd) pts).
  Proof. intros H. apply rseq_map_ok. induction H; simpl; constructor; auto. apply bsub_f. auto. Qed.

  Lemma next_doubles_rows km s q p : es_front s = F -> es_nadir s = nd -> es_pref s = Some p -> length p = k ->
    next_spec km s q -> exists mi c n zb, q = EReq mi c /\ es_left s = Some n /\ ec_left c = n /\
      Forall (fun z => exists i, In i (idx_list (es_idx s)) /\ nth_error F i = Some z) zb /\
      ec_points c = map (zipw (fstep n) p) zb /\ ec_dist c = map (fun z => fpct (zipw (fstep n) p z) z nd) zb.
  Proof.
    intros Ef En Hp Lp (np & p' & n & zbars & zs & lbs & ubs & ds & mi & Enp & Ep & El & Er & Ei & Eb & Ed & Em & ->).
    rewrite Hp in Ep. injection Ep as <-. rewrite Ef, En in *.
    pose proof (en_representatives_rows _ _ _ _ _ Er) as Hrows.
    assert (Hin : incl zbars F).
    { intros z Hz. rewrite Forall_forall in Hrows. destruct (Hrows z Hz) as (i & _ & Hi). eapply nth_error_In; eauto. }
    assert (HL : Forall (fun z => length p = length z) zbars).
    { apply Forall_forall. intros z Hz. rewrite Forall_forall in HF. rewrite (HF z); auto. }
    apply en_intermediate_f in Ei; auto. subst zs.
    do 4 eexists. split; [reflexivity|]. split; [exact El|]. split; [reflexivity|]. split; [exact Hrows|]. cbn [ec_points ec_dist]. split; [reflexivity|].
    unfold en_distances in Ed.
    rewrite (rsub_rows_f (map (zipw (fstep n) p) zbars)), (rsub_rows_f zbars) in Ed.
    - cbn [rbind] in Ed. rewrite bcast2_eq in Ed by (rewrite !map_length; auto). cbn [rbind] in Ed. injection Ed as <-.
      clear. induction zbars as [|z zb IH]; [reflexivity|]. apply (f_equal2 (@cons F64)); [reflexivity|exact IH].
    - apply Forall_forall. intros z Hz. rewrite Forall_forall in HF. rewrite (HF z); auto.
    - apply Forall_forall. intros z Hz. apply in_map_iff in Hz. destruct Hz as (z' & <- & Hz'). rewrite Forall_forall in HL.
      rewrite zipw_len by auto. etransitivity; [exact Lp|symmetry; exact Hnd].
  Qed.
  Lemma next_doubles km s q p : es_front s = F -> es_nadir s = nd -> es_pref s = Some p -> length p = k ->
    next_spec km s q -> exists mi c n, q = EReq mi c /\ es_left s = Some n /\ shown_doubles p n c.
  Proof.
    intros Ef En Hp Lp HN. destruct (next_doubles_rows km s q p Ef En Hp Lp HN) as (mi & c & n & zb & A & B & C & D & G & H).
    exists mi, c, n. split; [exact A|]. split; [exact B|]. split; [exact C|]. exists zb. split; [|split; assumption].
    intros z Hz. rewrite Forall_forall in D. destruct (D z Hz) as (i & _ & Hi). eapply nth_error_In; eauto.
  Qed.

  Lemma initial_doubles ideal vars s qs km d s' q i0 n0 : en_reach F ideal nd vars s qs ->
    en_iterate km (EInit i0 n0) (Some d) s = (s', Ok q) ->
    exists mi c n, q = EReq mi c /\ option_map as_int (d_n_iterations d) = Some (Some n) /\ shown_doubles nd n c.
  Proof.
    intros Hr H. destruct (en_reach_data _ _ _ _ _ _ Hr) as (Ef & _ & En & _). cbn [en_iterate] in H.
    destruct (en_initial_ok _ _ _ _ _ H) as (ni & np & Eni & Enp & Es & Hn).
    destruct (next_doubles km s' q nd) as (mi & c & n & Eq & El & HS); subst s'; cbn; auto; try congruence.
    exists mi, c, n. split; auto. split; auto. rewrite Eni. cbn in *. congruence.
  Qed.
  Lemma forward_doubles ideal vars s qs km mi0 c0 d i p s' mi c : en_reach F ideal nd vars s qs ->
    d_step_back d = Some false -> d_index d = Some i -> py_nth (ec_points c0) i = Ok p -> length p = k ->
    en_iterate km (EReq mi0 c0) (Some d) s = (s', Ok (EReq mi c)) ->
    exists n, es_left s' = Some n /\ shown_doubles p n c /\ es_front s' = F /\ es_vars s' = vars.
  Proof.
    intros Hr Hsb Hi Hp Lp H. destruct (en_reach_data _ _ _ _ _ _ Hr) as (Ef & _ & En & Ev). cbn [en_iterate] in H.
    destruct (en_forward_ok _ _ _ _ _ _ H Hsb) as (i' & p' & n & Ei & Ep & El & [(_ & _ & Hst)|(Hn & lb & ub & ri & ch & n' & _ & _ & _ & _ & _ & Es & Hs)]).
    - apply en_stop_is_stop in Hst. destruct Hst as (o & x & Hst). discriminate.
    - rewrite Hi in Ei. injection Ei as <-. rewrite Hp in Ep. injection Ep as <-.
      destruct (next_doubles km s' (EReq mi c) p) as (mi' & c' & n2 & Eq & El2 & HS); subst s'; cbn; auto.
      injection Eq as <- <-. cbn in El2. injection El2 as <-. exists n'. auto.
  Qed.
  (** the same, with the rows between the bounds of the chosen point *)
  Lemma forward_doubles_box ideal vars s qs km mi0 c0 d i p s' mi c : en_reach F ideal nd vars s qs ->
    is_matrix k (ec_lb c0) -> is_matrix k (ec_ub c0) ->
    d_step_back d = Some false -> d_index d = Some i -> (0 <= i)%Z -> nth_error (ec_points c0) (Z.to_nat i) = Some p -> length p = k ->
    en_iterate km (EReq mi0 c0) (Some d) s = (s', Ok (EReq mi c)) ->
    exists lb ub zb, nth_error (ec_lb c0) (Z.to_nat i) = Some lb /\ nth_error (ec_ub c0) (Z.to_nat i) = Some ub /\
      Forall (fun z => In z F /\ in_box z lb ub) zb /\
      ec_points c = map (zipw (fstep (ec_left c)) p) zb /\ ec_dist c = map (fun z => fpct (zipw (fstep (ec_left c)) p z) z nd) zb.
  Proof.
    intros Hr Hlb Hub Hsb Hi Hi0 Hp Lp H. destruct (en_reach_data _ _ _ _ _ _ Hr) as (Ef & _ & En & Ev). cbn [en_iterate] in H.
    destruct (en_forward_ok _ _ _ _ _ _ H Hsb) as (i' & p' & n & Ei & Ep & El & [(_ & _ & Hst)|(Hn & lb & ub & ri & ch & n' & Hl & Hu & Ere & _ & _ & Es & Hs)]).
    { apply en_stop_is_stop in Hst. destruct Hst as (o & x & Hst). discriminate. }
    rewrite Hi in Ei. injection Ei as <-. rewrite (py_nth_of_nth _ _ _ Hi0 Hp) in Ep. injection Ep as <-.
    rewrite py_nth_nonneg in Hl by lia; apply at_ok in Hl. rewrite py_nth_nonneg in Hu by lia; apply at_ok in Hu.
    assert (Ll : length lb = k) by (unfold is_matrix in Hlb; rewrite Forall_forall in Hlb; apply Hlb; eapply nth_error_In; eauto).
    assert (Lu : length ub = k) by (unfold is_matrix in Hub; rewrite Forall_forall in Hub; apply Hub; eapply nth_error_In; eauto).
    rewrite Ef in Ere. destruct (en_reachable_spec k F lb ub HF Ll Lu) as (idx & E & _ & Hids). rewrite E in Ere. injection Ere as <-.
    destruct (next_doubles_rows km s' (EReq mi c) p) as (mi' & c' & n2 & zb & Eq & El2 & EL & HR & HP & HD); subst s'; cbn; auto.
    injection Eq as <- <-. rewrite EL. cbn [es_idx] in HR. exists lb, ub, zb. split; [exact Hl|]. split; [exact Hu|]. split; [|split; assumption].
    apply Forall_forall. intros z Hz. rewrite Forall_forall in HR. destruct (HR z Hz) as (j & Hj & Hjz).
    split; [eapply nth_error_In; eauto|]. apply Hids in Hj. destruct Hj as (row & Hrow & Hb). congruence.
  Qed.
End Doubles.

Lemma map_nth_inv {A B} (f : A -> B) (l : list A) j x y : nth_error l j = Some x -> nth_error (map f l) j = Some y -> y = f x.
Proof. intros H G. rewrite nth_error_map, H in G. injection G as <-. reflexivity. Qed.
Definition rows_below (e : Z) (F : list (list F64)) : Prop := Forall (fin_below e) F.

Lemma shown_rounded F nd k p n c : Forall (fun r => length r = k) F -> length p = k ->
  rows_below 1020 F -> fin_below 1020 p -> (1 <= n <= 2 ^ 53)%Z -> shown_doubles F nd p n c ->
  exists zb, incl zb F /\ Forall2 (rounded_step n p) zb (ec_points c).
Proof.
  intros HF Lp BF Bp Hn (_ & zb & Hin & Ep & _). exists zb. split; auto. rewrite Ep.
  rewrite Forall_forall in HF. unfold rows_below in BF. rewrite Forall_forall in BF.
  clear Ep. induction zb as [|z zb IH]; cbn [map]; constructor.
  - apply step_rounded; auto.
    + rewrite (HF z); auto. apply Hin. left. auto.
    + apply BF. apply Hin. left. auto.
  - apply IH. intros w Hw. apply Hin. right. auto.
Qed.
Lemma shown_last F nd k p c : Forall (fun r => length r = k) F -> length p = k ->
  Forall (Forall ffin) F -> Forall ffin p -> shown_doubles F nd p 1 c ->
  Forall (fun y => exists z, In z F /\ Forall2 (fun x y => ffin x /\ fval x = fval y) y z) (ec_points c).
Proof.
  intros HF Lp BF Bp (_ & zb & Hin & Ep & _). rewrite Ep. apply Forall_forall. intros y Hy. apply in_map_iff in Hy. destruct Hy as (z & <- & Hz).
  exists z. split; [auto|]. rewrite Forall_forall in HF. rewrite Forall_forall in BF. apply step_last_same; auto. etransitivity; [exact Lp|symmetry; apply HF; auto].
Qed.

(** Steps from numbers below 2^499 stay below 2^500. *)
Lemma step_below n (p z : list F64) : (1 <= n <= 2 ^ 53)%Z -> length p = length z -> fin_below 499 p -> fin_below 499 z ->
  fin_below 500 (zipw (fstep n) p z).
Proof.
  intros Hn. revert z. induction p as [|a p IH]; intros [|b z] L Hp Hz; try discriminate; cbn [zipw]; constructor.
  - destruct (Forall_inv Hp) as [Fa Ba]. destruct (Forall_inv Hz) as [Fb Bb].
    assert (B1 : bpow radix2 499 <= bpow radix2 1020) by (apply bpow_le; lia).
    destruct (fstep_close n a b Hn Fa Fb) as [G E]; try lra. split; auto.
    assert (Pn : 1 <= IZR n) by (apply IZR_le; lia). assert (Pm : 0 <= IZR (n - 1)) by (apply IZR_le; lia).
    set (c1 := IZR (n - 1) / IZR n) in *. set (c2 := 1 / IZR n) in *.
    assert (C1 : 0 <= c1) by (apply div_nonneg; lra). assert (C2 : 0 <= c2) by (apply div_nonneg; lra).
    assert (C3 : c1 + c2 = 1) by (unfold c1, c2; rewrite minus_IZR; field; lra).
    assert (B2 : c1 * Rabs (fval a) + c2 * Rabs (fval b) <= bpow radix2 499) by nra.
    assert (B3 : Rabs (c1 * fval a + c2 * fval b) <= bpow radix2 499).
    { eapply Rle_trans; [apply Rabs_triang|]. rewrite !Rabs_mult, (Rabs_pos_eq c1), (Rabs_pos_eq c2); auto. }
    assert (T : Rabs (fval (fstep n a b)) <= bpow radix2 499 + (bpow radix2 (-51) * bpow radix2 499 + bpow radix2 (-1073))).
    { replace (fval (fstep n a b)) with ((c1 * fval a + c2 * fval b) + (fval (fstep n a b) - (c1 * fval a + c2 * fval b))) by ring.
      eapply Rle_trans; [apply Rabs_triang|]. apply Rplus_le_compat; auto. eapply Rle_trans; [exact E|].
      apply Rplus_le_compat_r. apply Rmult_le_compat_l; [apply bpow_ge_0|auto]. }
    eapply Rle_trans; [exact T|]. change 500%Z with (1 + 499)%Z. rewrite (bpow_plus radix2 1 499). change (bpow radix2 1) with 2.
    rewrite <- bpow_plus. change (-51 + 499)%Z with 448%Z.
    assert (bpow radix2 448 <= bpow radix2 498) by (apply bpow_le; lia). assert (bpow radix2 (-1073) <= bpow radix2 498) by (apply bpow_le; lia).
    assert (bpow radix2 499 = 2 * bpow radix2 498) by (change 499%Z with (1 + 498)%Z; rewrite bpow_plus; reflexivity). lra.
  - apply IH; [injection L; auto|apply (Forall_inv_tail Hp)|apply (Forall_inv_tail Hz)].
Qed.

Definition distance_ok (k : nat) (n : Z) (nd z y : list F64) (dist : F64) : Prop :=
  (apart (-500) y nd -> apart (-500) z nd -> map fval z <> map fval nd ->
     approximates (IZR (2 * Z.of_nat k + 10) * bpow radix2 (-52)) dist (100 * rdist (map fval y) (map fval nd) / rdist (map fval z) (map fval nd))) /\
  (n = 1%Z -> ~ close_to (-536) z nd -> PrimFloat.eqb dist 100 = true).

Lemma shown_distances F nd k p n c : Forall (fun r => length r = k) F -> length p = k -> length nd = k -> (Z.of_nat k <= 2 ^ 20)%Z ->
  rows_below 499 F -> fin_below 499 p -> fin_below 499 nd -> (1 <= n <= 2 ^ 53)%Z -> shown_doubles F nd p n c ->
  exists zb, incl zb F /\ Forall2 (rounded_step n p) zb (ec_points c) /\
    forall j z y dist, nth_error zb j = Some z -> nth_error (ec_points c) j = Some y -> nth_error (ec_dist c) j = Some dist ->
      distance_ok k n nd z y dist.
Proof.
  intros HF Lp Ln Hk BF Bp Bn Hn (_ & zb & Hin & Ep & Ed). exists zb. split; auto. rewrite Forall_forall in HF. unfold rows_below in BF. rewrite Forall_forall in BF. split.
  - rewrite Ep. clear Ep Ed. induction zb as [|z zb IH]; cbn [map]; constructor.
    + assert (In z F) by (apply Hin; left; auto). apply step_rounded; auto.
      * rewrite (HF z); auto.
      * apply (within_le 499); [lia|auto].
      * apply (within_le 499); [lia|auto].
    + apply IH. intros w Hw. apply Hin. right. auto.
  - intros j z y dist Hz Hy Hd. rewrite Ep in Hy. rewrite Ed in Hd. pose proof (map_nth_inv _ _ _ _ _ Hz Hy) as ->. pose proof (map_nth_inv _ _ _ _ _ Hz Hd) as ->. clear Hy Hd.
    assert (Hi : In z F) by (apply Hin; eapply nth_error_In; eauto). assert (Lz : length z = k) by auto. assert (Bz := BF z Hi).
    assert (Lpz : length p = length z) by (etransitivity; [exact Lp|symmetry; exact Lz]).
    assert (By := step_below n p z Hn Lpz Bp Bz).
    assert (Ly : length (zipw (fstep n) p z) = k) by (rewrite zipw_len by exact Lpz; exact Lp).
    assert (Bz5 := within_le 499 500 z ltac:(lia) Bz). assert (Bn5 := within_le 499 500 nd ltac:(lia) Bn).
    split.
    + intros Ay Az Ne. apply fpct_close; auto.
    + intros -> Nc. change 100%float with (f64_ofZ 100). apply (fpct_100 _ z nd k); auto.
      assert (S := step_last_same p z Lpz (within_fin _ _ Bp) (within_fin _ _ Bz)).
      clear -S. induction S as [|a b l m [_ E] S IH]; constructor; auto.
Qed.

(** The decision vector of the final solution. *)
Lemma stop_doubles F k V (s : en_state F64) (p : list F64) q j0 row0 : (Z.of_nat k <= 2 ^ 20)%Z ->
  Forall (fun r => length r = k) F -> rows_below 500 F -> length p = k -> fin_below 500 p ->
  nth_error F j0 = Some row0 -> Forall2 (fun x y : F64 => fval x = fval y) p row0 ->
  es_front s = F -> es_vars s = Some V -> en_stop s p = Ok q ->
  exists j row x, nth_error F j = Some row /\ nth_error V j = Some x /\ q = EStop p (Some x) /\ close_to (-536) row p.
Proof.
  intros Hk HF BF Lp Bp H0 S Ef Ev H. unfold en_stop in H. rewrite Ev, Ef in H.
  assert (E : rseq (map (fun row : list F64 => bcast2 nsub row p) F) = Ok (map (fun row => fsub row p) F)).
  { apply rseq_map_ok. clear -HF Lp. induction HF; cbn; constructor; auto. apply bsub_f. congruence. }
  rewrite E in H. cbn [rbind] in H. rewrite map_map in H. apply rbind_ok in H. destruct H as (i & Hi & H). apply rbind_ok in H. destruct H as (x & Hx & H). injection H as <-.
  destruct (nearest_row F p k j0 row0 i) as (row & Hr & Hc); auto.
  { rewrite Forall_forall in HF. unfold rows_below in BF. rewrite Forall_forall in *. intros r Hr. auto. }
  exists i, row, x. repeat split; auto. apply at_ok in Hx. auto.
Qed.
