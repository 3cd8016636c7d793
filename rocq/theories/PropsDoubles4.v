(** * E-NAUTILUS: progress of a session in any arithmetic and with IEEE doubles (C13).
    Vocabulary in SENautilus.v ([clusters], [moves_to], [towards], [stays_between],
    [session], [clearly_below], [rounding_safe]) and SFloat.v. *)
From Coq Require Import ZArith List Bool Lia Reals Floats.
From Flocq Require Import Core.
From Verif Require Import Num NumF64 Py Np Spec MENautilus F64Sums SFloat SENautilus PENautilus PENautilus3 PENautilus7.
Import ListNotations.

(** ** C13: progress with two objectives, whatever the arithmetic *)
(** As long as the point computed on the way from the chosen point [y] to each front row
    below it lies between the two, choosing [y] works: with one iteration left the session
    stops at [y]; otherwise the next request can again reach exactly the rows below [y],
    shows at least one point, and every point shown lies between a front row and [y]. *)
Theorem C13_progress_any_arithmetic :
  forall (N : NumOps) (L : OrdLaws N) (F : list (list N)) ideal nd vars,
  is_matrix 2 F -> nan_free_m F -> length nd = 2 -> F <> [] -> Forall (fun r => vle r nd) F -> mutually_nondominated F ->
  (forall V, vars = Some V -> length V = length F) ->
  forall s mi c, session F ideal nd vars s (EReq mi c) ->
  forall km d y n', clusters km -> moves_to c d y n' -> ((1 < ec_left c)%Z -> stays_between F n' y) ->
  exists s' q, en_iterate km (EReq mi c) (Some d) s = (s', Ok q) /\
    ((ec_left c <= 1)%Z /\ (exists x, q = EStop y x) \/
     (1 < ec_left c)%Z /\
     exists mi' c', q = EReq mi' c' /\ ec_left c' = n' /\
       (forall j row, nth_error F j = Some row -> (In j (idx_list (es_idx s')) <-> vle row y)) /\
       ec_points c' <> [] /\
       (forall v, In v (ec_points c') -> exists z, In z F /\ vle z v /\ vle v y)).
Proof. intros. eapply progress7; eauto. Qed.
Print Assumptions C13_progress_any_arithmetic.

(** The first answer works too, and shows points. *)
Theorem C13_first_answer_any_arithmetic :
  forall (N : NumOps) (F : list (list N)) ideal nd vars,
  is_matrix 2 F -> nan_free_m F -> length nd = 2 -> F <> [] -> Forall (fun r => vle r nd) F -> mutually_nondominated F ->
  (forall V, vars = Some V -> length V = length F) ->
  forall km d, clusters km -> en_validate_init d = Ok tt ->
  (forall n, option_map as_int (d_n_iterations d) = Some (Some n) -> stays_between F n nd) ->
  exists s mi c, en_iterate km (en_start (en_init F ideal nd vars)) (Some d) (en_init F ideal nd vars) = (s, Ok (EReq mi c)) /\
    session F ideal nd vars s (EReq mi c) /\
    ec_points c <> [] /\ (forall v, In v (ec_points c) -> exists z, In z F /\ vle z v /\ vle v nd).
Proof.
  intros N F ideal nd vars H1 H2 H3 H4 H5 H6 H7 km d Hk Hd Hs.
  destruct (progress7_init F ideal nd vars H1 H2 H3 H4 H5 H6 H7 km d Hk Hd Hs) as (s & mi & c & E & P). exists s, mi, c. split; [exact E|].
  split; [eapply session_init; eauto|exact P].
Qed.
Print Assumptions C13_first_answer_any_arithmetic.

(** ** C13: doubles - when rounding can do no harm *)
Theorem C13_rounding_safe_doubles :
  forall n (F : list (list F64)) (p : list F64), (1 <= n <= 2 ^ 53)%Z -> fin_below 1020 p -> Forall (fin_below 1020) F ->
  (forall z, In z F -> vle z p -> rounding_safe n z p) -> stays_between F n p.
Proof. exact safe_stays. Qed.
Print Assumptions C13_rounding_safe_doubles.

(** ** C13: doubles - sessions of up to two iterations always go through *)
Theorem C13_two_iterations_doubles :
  forall (F : list (list F64)) (ideal nd : list F64) vars,
  is_matrix 2 F -> length nd = 2 -> F <> [] -> Forall (fun r => vle r nd) F -> mutually_nondominated F ->
  (forall V, vars = Some V -> length V = length F) ->
  fin_below 1020 nd -> Forall (fin_below 1020) F -> Forall halvable nd -> Forall (Forall halvable) F ->
  forall km0 d0, clusters km0 -> en_validate_init d0 = Ok tt -> option_map as_int (d_n_iterations d0) = Some (Some 2%Z) ->
  let s0 := en_init F ideal nd vars in
  exists s1 mi1 c1, en_iterate km0 (en_start s0) (Some d0) s0 = (s1, Ok (EReq mi1 c1)) /\ ec_points c1 <> [] /\
  forall km1 d1 y1, clusters km1 -> moves_to c1 d1 y1 1 -> d_change d1 = Some false ->
  exists s2 mi2 c2, en_iterate km1 (EReq mi1 c1) (Some d1) s1 = (s2, Ok (EReq mi2 c2)) /\ ec_points c2 <> [] /\
  forall km2 d2 y2 n', clusters km2 -> moves_to c2 d2 y2 n' ->
  exists s3 x, en_iterate km2 (EReq mi2 c2) (Some d2) s2 = (s3, Ok (EStop y2 x)).
Proof.
  intros F ideal nd vars HF Hnd Hne Hb Hm Hv Bn BF Hhn HhF km0 d0 Hk0 Hv0 Hi0 s0.
  assert (Hnan : nan_free_m F).
  { eapply Forall_impl; [|exact BF]. intros v. apply fin_nan_free. }
  assert (S2 : stays_between F 2 nd).
  { apply safe_stays; auto; [split; intros ?; discriminate|]. intros z Hz _. right. left. split; auto. split; auto. rewrite Forall_forall in HhF. auto. }
  assert (S0 : forall n, option_map as_int (d_n_iterations d0) = Some (Some n) -> stays_between F n nd).
  { intros n E. rewrite Hi0 in E. injection E as <-. exact S2. }
  destruct (progress7_init (N:=F64) F ideal nd vars HF Hnan Hnd Hne Hb Hm Hv km0 d0 Hk0 Hv0 S0) as (s1 & mi1 & c1 & E1 & P1 & B1).
  exists s1, mi1, c1. split; [exact E1|]. split; [exact P1|].
  assert (SS1 : session F ideal nd vars s1 (EReq mi1 c1)) by (eapply session_init; eauto).
  intros km1 d1 y1 Hk1 M1 Hc1.
  assert (L1 : ec_left c1 = 2%Z).
  { destruct M1 as (_ & _ & [[_ E]|(E & _)]); [lia|]. rewrite Hc1 in E. discriminate. }
  assert (Sy : (1 < ec_left c1)%Z -> stays_between F 1 y1).
  { intros _. destruct M1 as (_ & (i & _ & _ & Hy) & _). apply nth_error_In in Hy. destruct (B1 _ Hy) as (z & Hz & Hzy & Hyn).
    rewrite Forall_forall in BF. apply safe_stays; [split; intros ?; discriminate| |apply Forall_forall; auto|intros; left; reflexivity].
    eapply squeeze_below; [apply BF; eauto|exact Bn|exact Hzy|exact Hyn]. }
  destruct (progress7 (N:=F64) F64_ord F ideal nd vars HF Hnan Hnd Hne Hb Hm Hv s1 mi1 c1 SS1 km1 d1 y1 1%Z Hk1 M1 Sy) as (s2 & q & E2 & [(Hl & _)|(Hl & mi2 & c2 & -> & L2 & _ & P2 & B2)]); [lia|].
  exists s2, mi2, c2. split; [exact E2|]. split; [exact P2|].
  assert (SS2 : session F ideal nd vars s2 (EReq mi2 c2)) by (eapply session_step; eauto).
  intros km2 d2 y2 n' Hk2 M2.
  destruct (progress7 (N:=F64) F64_ord F ideal nd vars HF Hnan Hnd Hne Hb Hm Hv s2 mi2 c2 SS2 km2 d2 y2 n' Hk2 M2) as (s3 & q & E3 & [(_ & x & ->)|(Hl3 & _)]); [lia| |lia].
  exists s3, x. exact E3.
Qed.
Print Assumptions C13_two_iterations_doubles.

(** ** C13: refuted for doubles with three iterations *)
(** Two objectives, the front (0, 7), (7, 0) with nadir (7, 7), three iterations, two points.
    The first point shown is (4.666..., 6.999...): one rounding error below the second
    component of the row (0, 7) it is meant to lead to.  Choosing it makes the method
    consider no row of the front reachable; the next request shows no points at all, and
    every answer that moves forward raises an exception. *)
Definition w_front : list (list F64) := [[0; 7]; [7; 0]]%float.
Definition w_ideal : list F64 := [0; 0]%float.
Definition w_nadir : list F64 := [7; 7]%float.
Definition w_km : @km_oracle F64 := fun rows n =>
  if (n <? Z.of_nat (length rows))%Z && (0 <=? n)%Z then Ok (seq 0 (Z.to_nat n)) else Raise ValueErr.
Definition w_a0 : en_dict F64 := MkED (Some (VInt 3)) (Some (VInt 2)) None None None None None None None None None.
Definition w_a1 : en_dict F64 := MkED None None (Some 0%Z) (Some false) (Some false) None None None None None None.

Lemma w_clusters : clusters w_km.
Proof.
  split.
  - intros rows n cl H. unfold w_km in H. destruct (Z.ltb_spec n (Z.of_nat (length rows))); [|discriminate].
    destruct (Z.leb_spec 0 n); [|discriminate]. injection H as <-. rewrite seq_length. split; [lia|].
    apply Forall_forall. intros i Hi. apply in_seq in Hi. lia.
  - intros rows n Hn. unfold w_km. destruct (Z.ltb_spec n (Z.of_nat (length rows))); [|lia].
    destruct (Z.leb_spec 0 n); [|lia]. cbn. eauto.
Qed.
Lemma w_nondominated : mutually_nondominated w_front.
Proof.
  intros a b Ha Hb [H1 H2]. apply H2. clear H2.
  cbn in Ha, Hb. destruct Ha as [<-|[<-|[]]], Hb as [<-|[<-|[]]]; try exact H1; exfalso;
    inversion H1 as [|? ? ? ? A B]; subst; inversion B as [|? ? ? ? C D]; subst; vm_compute in A, C; discriminate.
Qed.
Lemma no_points_raises (km : @km_oracle F64) mi c d s : ec_points c = [] -> d_step_back d = Some false ->
  exists e, snd (en_iterate km (EReq mi c) (Some d) s) = Raise e.
Proof.
  intros Hc Hd. cbn [en_iterate]. unfold en_handle_request. rewrite Hd. unfold sbind, lift. cbn [key].
  destruct (d_index d) as [i|]; cbn [key]; [|eexists; reflexivity].
  rewrite Hc. assert (E : exists e, py_nth (@nil (list F64)) i = Raise e).
  { destruct (py_nth (@nil (list F64)) i) as [v|e] eqn:E; [|eauto]. exfalso. unfold py_nth in E. cbn in E.
    destruct (py_pos 0 i) as [[|n]|]; discriminate. }
  destruct E as [e E]. rewrite E. cbn. eexists; reflexivity.
Qed.
Definition w_s0 := en_init w_front w_ideal w_nadir None.
Definition w_r1 := en_iterate w_km (en_start w_s0) (Some w_a0) w_s0.
Definition w_r2 := match w_r1 with (s, Ok q) => en_iterate w_km q (Some w_a1) s | x => x end.
Definition w_check (r1 r2 : en_state F64 * res (en_request F64)) : bool :=
  match r1, r2 with
  | (_, Ok (EReq mi1 c1)), (_, Ok (EReq _ c2)) =>
      (Nat.eqb (length (ec_points c1)) 2) && (match en_validate_req mi1 w_a1 with Ok _ => true | _ => false end) &&
      (match ec_points c2 with [] => true | _ => false end) && (ec_left c2 =? 2)%Z
  | _, _ => false
  end.
Lemma w_extract (r1 : en_state F64 * res (en_request F64)) (f : en_request F64 -> en_state F64 -> en_state F64 * res (en_request F64)) :
  w_check r1 (match r1 with (s, Ok q) => f q s | x => x end) = true ->
  exists s1 mi1 c1 s2 mi2 c2, r1 = (s1, Ok (EReq mi1 c1)) /\ length (ec_points c1) = 2 /\ en_validate_req mi1 w_a1 = Ok tt /\
    f (EReq mi1 c1) s1 = (s2, Ok (EReq mi2 c2)) /\ ec_points c2 = [] /\ ec_left c2 = 2%Z.
Proof.
  unfold w_check. destruct r1 as [s1 [[|mi1 c1|]|]]; try discriminate.
  destruct (f (EReq mi1 c1) s1) as [s2 [[|mi2 c2|]|]] eqn:E; try discriminate.
  intros H. apply andb_prop in H as [H H4]. apply andb_prop in H as [H H3]. apply andb_prop in H as [H1 H2].
  exists s1, mi1, c1, s2, mi2, c2. split; [reflexivity|]. split; [apply Nat.eqb_eq; exact H1|].
  split; [destruct (en_validate_req mi1 w_a1) as [[]|]; [reflexivity|discriminate]|].
  split; [exact E|]. split; [destruct (ec_points c2); [reflexivity|discriminate]|apply Z.eqb_eq; exact H4].
Qed.
Lemma w_run : w_check w_r1 w_r2 = true.
Proof. vm_compute. reflexivity. Qed.

Theorem C13_doubles_refuted :
  clusters w_km /\ mutually_nondominated w_front /\ Forall (fun r => vle w_ideal r /\ vle r w_nadir) w_front /\
  en_validate_init w_a0 = Ok tt /\
  exists s1 mi1 c1 s2 mi2 c2,
    en_iterate w_km (en_start w_s0) (Some w_a0) w_s0 = (s1, Ok (EReq mi1 c1)) /\
    length (ec_points c1) = 2 /\ en_validate_req mi1 w_a1 = Ok tt /\
    en_iterate w_km (EReq mi1 c1) (Some w_a1) s1 = (s2, Ok (EReq mi2 c2)) /\
    ec_points c2 = [] /\ ec_left c2 = 2%Z /\
    forall km d, d_step_back d = Some false -> exists e, snd (en_iterate km (EReq mi2 c2) (Some d) s2) = Raise e.
Proof.
  split; [exact w_clusters|]. split; [exact w_nondominated|]. split; [repeat constructor|]. split; [reflexivity|].
  destruct (w_extract w_r1 (fun q s => en_iterate w_km q (Some w_a1) s) w_run) as (s1 & mi1 & c1 & s2 & mi2 & c2 & E1 & H1 & H2 & E2 & H3 & H4).
  exists s1, mi1, c1, s2, mi2, c2. repeat (split; [assumption|]). intros km d Hd. apply no_points_raises; auto.
Qed.
Print Assumptions C13_doubles_refuted.

Definition w_vleb (a b : list F64) : bool := Nat.eqb (length a) (length b) && forallb (fun x => x) (zipw (fun x y => PrimFloat.leb x y) a b).
Lemma w_vleb_spec a b : w_vleb a b = true <-> vle a b.
Proof.
  unfold w_vleb. split.
  - revert b. induction a as [|x a IH]; intros [|y b]; cbn; try discriminate; [constructor|].
    intros H. apply andb_prop in H as [H1 H2]. apply andb_prop in H2 as [H2 H3]. constructor; [exact H2|]. apply (IH b). apply andb_true_intro. split; [exact H1|exact H3].
  - induction 1 as [|x y a b H _ IH]; [reflexivity|]. apply andb_prop in IH as [I1 I2]. cbn. apply andb_true_intro. split; [exact I1|]. apply andb_true_intro. split; [exact H|exact I2].
Qed.
Definition w_betweenb (n : Z) (y : list F64) : bool :=
  forallb (fun z => implb (w_vleb z y) (w_vleb z (towards n y z) && w_vleb (towards n y z) y)) w_front.
Lemma w_betweenb_spec n y : w_betweenb n y = true -> stays_between w_front n y.
Proof.
  intros H z Hz Hle. unfold w_betweenb in H. rewrite forallb_forall in H. specialize (H z Hz).
  apply w_vleb_spec in Hle. rewrite Hle in H. apply andb_prop in H as [A B]. split; apply w_vleb_spec; assumption.
Qed.
Definition w_session_check (r : en_state F64 * res (en_request F64)) : bool :=
  match r with
  | (_, Ok (EReq _ c)) => (ec_left c =? 2)%Z && match ec_points c with y :: _ => w_betweenb 1 y | _ => false end
  | _ => false
  end.
Lemma w_session_spec r : w_session_check r = true ->
  exists s mi c y, r = (s, Ok (EReq mi c)) /\ ec_left c = 2%Z /\ nth_error (ec_points c) 0 = Some y /\ stays_between w_front 1 y.
Proof.
  destruct r as [s [[|mi c|]|]]; cbn; try discriminate. intros H. apply andb_prop in H as [A B].
  destruct (ec_points c) as [|y l] eqn:E; [discriminate|]. exists s, mi, c, y. rewrite E. repeat split; [apply Z.eqb_eq; exact A|apply (w_betweenb_spec 1 y B); assumption..].
Qed.
(** The hypotheses of the positive statements are met by the same data with two
    iterations. *)
Lemma w_between : stays_between w_front 2 w_nadir.
Proof.
  intros z Hz _. cbn in Hz. destruct Hz as [<-|[<-|[]]]; split; repeat constructor.
Qed.
Definition w_a0' : en_dict F64 := MkED (Some (VInt 2)) (Some (VInt 2)) None None None None None None None None None.
Example C13_doubles_hypotheses_met :
  is_matrix 2 w_front /\ nan_free_m w_front /\ Forall (fun r => vle r w_nadir) w_front /\ en_validate_init w_a0' = Ok tt /\
  stays_between w_front 2 w_nadir /\
  exists s mi c, session w_front w_ideal w_nadir None s (EReq mi c) /\ exists y, moves_to c w_a1 y 1 /\ stays_between w_front 1 y.
Proof.
  assert (H1 : is_matrix 2 w_front) by repeat constructor. assert (H2 : nan_free_m w_front) by repeat constructor.
  assert (H3 : Forall (fun r => vle r w_nadir) w_front) by repeat constructor.
  repeat (split; [assumption || reflexivity || exact w_between|]).
  assert (B : w_session_check (en_iterate w_km (en_start w_s0) (Some w_a0') w_s0) = true) by (vm_compute; reflexivity).
  destruct (w_session_spec _ B) as (s & mi & c & y & E & L & P & S).
  exists s, mi, c. split.
  - eapply session_init; [exact w_clusters| | |exact E]; [reflexivity|]. intros n En. injection En as <-. exact w_between.
  - exists y. split; [|exact S]. split; [reflexivity|]. split; [exists 0%Z; repeat split; [discriminate|exact P]|]. left. rewrite L. split; reflexivity.
Qed.
