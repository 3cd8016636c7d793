(** * E-NAUTILUS: progress with two objectives in any arithmetic (C13). *)
From Coq Require Import ZArith List Bool Lia Reals Lra Floats.
From Flocq Require Import Core.
From Verif Require Import Num NumXR NumF64 Py Np Spec NpFacts MENautilus PENautilus PENautilus2 PENautilus3 F64Sums F64Step SFloat F64Vec F64Walk SENautilus.
Import ListNotations.

Section Any.
  Context {N : NumOps}.
  Hypothesis L : OrdLaws N.
  Notation vec := (list N).
  Variables (F : list vec) (ideal nd : vec) (vars : option (list vec)).
  Hypothesis HF : is_matrix 2 F.
  Hypothesis Hnan : nan_free_m F.
  Hypothesis Hnd : length nd = 2.
  Hypothesis Hne : F <> [].
  Hypothesis Hbelow : Forall (fun r => vle r nd) F.
  Hypothesis Hmnd : mutually_nondominated F.
  Hypothesis Hvars : forall V, vars = Some V -> length V = length F.

  Lemma vle_len (a b : vec) : vle a b -> length a = length b.
  Proof. apply Forall2_len. Qed.
  Lemma vle_nan_r (a b : vec) : vle a b -> nan_free b.
  Proof. induction 1; constructor; auto. eapply leb_notnan_r; eauto. Qed.
  Lemma rowlen z : In z F -> length z = 2.
  Proof. intros H. unfold is_matrix in HF. rewrite Forall_forall in HF. auto. Qed.
  Lemma towards_len n (p z : vec) : length p = length z -> length (towards n p z) = length p.
  Proof. apply zipw_len. Qed.
  Lemma towards_eq n (p z : vec) : length p = length z ->
    bcast2 (@nadd N) (vscale (ndiv (nofZ (n - 1)) (nofZ n)) p) (vscale (ndiv (nofZ 1) (nofZ n)) z) = Ok (towards n p z).
  Proof.
    intros H. rewrite bcast2_eq by (unfold vscale; rewrite !map_length; auto). f_equal. unfold towards.
    clear. revert z. induction p as [|a p IH]; intros [|b z]; cbn [vscale map zipw]; auto. f_equal. apply IH.
  Qed.
  Lemma inter_eq n (p : vec) (zb : list vec) : n <> 0%Z -> Forall (fun z => length p = length z) zb ->
    en_intermediate p zb n = Ok (map (towards n p) zb).
  Proof.
    intros Hn H. unfold en_intermediate. destruct (Z.eqb_spec n 0); [contradiction|]. apply rseq_map_ok.
    induction H; cbn [map]; constructor; auto. apply towards_eq. auto.
  Qed.
  Lemma sub_rows (pts : list vec) (y : vec) : Forall (fun z => length z = length y) pts ->
    exists l, rseq (map (fun z => bcast2 nsub z y) pts) = Ok l /\ length l = length pts.
  Proof.
    intros H. exists (map (fun z => zipw nsub z y) pts). split; [|apply map_length]. apply rseq_map_ok.
    induction H; cbn [map]; constructor; auto. apply bcast2_eq. auto.
  Qed.
  Lemma dist_ok (pts zb : list vec) : length pts = length zb -> Forall (fun z => length z = length nd) pts -> Forall (fun z => length z = length nd) zb ->
    exists ds, en_distances pts zb nd = Ok ds.
  Proof.
    intros HL H1 H2. unfold en_distances. destruct (sub_rows pts nd H1) as (a & -> & La). destruct (sub_rows zb nd H2) as (b & -> & Lb).
    cbn [rbind]. rewrite bcast2_eq by (rewrite !map_length; congruence). cbn [rbind]. eauto.
  Qed.

  Definition Inv7 (s : en_state N) (c : en_content N) : Prop :=
    es_front s = F /\ es_nadir s = nd /\ es_vars s = vars /\
    (exists np, es_npoints s = Some np /\ (1 <= np)%Z) /\
    exists p n zb, es_left s = Some n /\ (1 <= n)%Z /\ ec_left c = n /\
      es_pref s = Some p /\ length p = 2 /\ stays_between F n p /\
      zb <> [] /\ Forall (fun z => In z F /\ vle z p) zb /\
      ec_points c = map (towards n p) zb /\
      en_bounds F 2 (ec_points c) = Ok (ec_lb c, ec_ub c) /\
      (forall j row, nth_error F j = Some row -> (In j (idx_list (es_idx s)) <-> vle row p)).

  Lemma next7 km s p n np :
    clusters km -> es_front s = F -> es_nadir s = nd -> es_vars s = vars ->
    es_npoints s = Some np -> (1 <= np)%Z -> es_left s = Some n -> (1 <= n)%Z ->
    es_pref s = Some p -> length p = 2 -> stays_between F n p ->
    (forall j, In j (idx_list (es_idx s)) -> j < length F) ->
    (forall j row, nth_error F j = Some row -> (In j (idx_list (es_idx s)) <-> vle row p)) ->
    (exists row, In row F /\ vle row p) ->
    exists mi c, en_next km s = (s, Ok (EReq mi c)) /\ Inv7 s c.
  Proof.
    intros [Hk Hkt] Ef En Ev Enp Hnp El Hn Ep Hlp Hst Hlt Hids [row0 [Hrow0 Hrow0p]].
    destruct (take_lt F (idx_list (es_idx s))) as [rows Hrows]; [apply Forall_forall; auto|].
    assert (Hnonempty : idx_list (es_idx s) <> []).
    { apply In_nth_error in Hrow0. destruct Hrow0 as [j Hj].
      assert (H : In j (idx_list (es_idx s))) by (apply (Hids j row0 Hj); auto).
      intros E. rewrite E in H. contradiction. }
    assert (Hrep : exists zbars, en_representatives km F (es_idx s) np = Ok zbars).
    { unfold en_representatives. rewrite Hrows. cbn [rbind].
      destruct (Z.ltb_spec np (Z.of_nat (length (idx_list (es_idx s))))) as [H|H]; [|eauto].
      apply take_ok in Hrows. pose proof (Forall2_len _ _ _ Hrows) as HL.
      destruct (Hkt rows np) as [cl Hcl]; [lia|]. rewrite Hcl. cbn [rbind].
      apply take_lt. apply (Hk _ _ _ Hcl). }
    destruct Hrep as [zb Hrep].
    pose proof (en_representatives_rows _ _ _ _ _ Hrep) as Hzr.
    destruct (en_representatives_spec _ _ _ _ _ Hk Hnp Hrep) as [_ Hzlen].
    assert (Hzne : zb <> []).
    { intros E. subst zb. cbn in Hzlen. destruct (idx_list (es_idx s)); [contradiction|]. cbn [length] in Hzlen. lia. }
    assert (Hzb2 : Forall (fun z => In z F /\ vle z p) zb).
    { eapply Forall_impl; [|exact Hzr]. intros z [i [Hi Hz]]. split; [eapply nth_error_In; eauto|]. apply (Hids i z Hz). auto. }
    assert (Hzl : Forall (fun z => length z = 2) zb).
    { eapply Forall_impl; [|exact Hzb2]. intros z [Hz _]. apply rowlen. auto. }
    set (zs := map (towards n p) zb).
    assert (Hmid : Forall (fun z => vle z (towards n p z) /\ vle (towards n p z) p) zb).
    { eapply Forall_impl; [|exact Hzb2]. intros z [Hz1 Hz2]. apply Hst; auto. }
    assert (Hint : en_intermediate p zb n = Ok zs).
    { apply inter_eq; [lia|]. eapply Forall_impl; [|exact Hzl]. cbn; intros; congruence. }
    assert (Hbd : exists lbs ubs, en_bounds F 2 zs = Ok (lbs, ubs)).
    { unfold en_bounds.
      assert (exists bs, rseq (map (en_bounds1 F 2) zs) = Ok bs) as [bs Hbs].
      { unfold zs. clear - HF Hzb2 Hzl Hmid Hlp. induction zb as [|z zb' IH]; [exists []; reflexivity|].
        cbn [map rseq].
        inversion Hzb2 as [|? ? [HzF Hzp] Hzb2']; subst. inversion Hzl; subst. inversion Hmid as [|? ? [Hm1 Hm2] Hmid']; subst.
        destruct IH as [bs Hbs]; auto.
        destruct (en_bounds1_defined 2 F (towards n p z)) as (lb & ub & Hb); [exact HF| | |].
        - rewrite towards_len; congruence.
        - intros r Hr. exists z. split; auto. intros j x y _ Hx Hy. apply vle_nth in Hm1. destruct Hm1 as [_ Hm1]. eauto.
        - rewrite Hb, Hbs. simpl. eauto. }
      rewrite Hbs. simpl. eauto. }
    destruct Hbd as (lbs & ubs & Hbd).
    destruct (dist_ok zs zb) as [ds Hds].
    { apply map_length. }
    { unfold zs. rewrite Forall_map. eapply Forall_impl; [|exact Hzl]. cbn; intros. rewrite towards_len; congruence. }
    { eapply Forall_impl; [|exact Hzl]. cbn; intros; congruence. }
    assert (Hmi : exists mi, en_max_index zs = Ok mi).
    { unfold en_max_index, zs. destruct zb as [|z [|z2 zb']]; cbn [map]; eauto.
      inversion Hzl; subst. rewrite towards_len by congruence. rewrite Hlp. cbn. eauto. }
    destruct Hmi as [mi Hmi].
    exists mi, (MkEC (es_ideal s) nd zs lbs ubs n ds). split.
    - pose proof (en_next_eq km s np p n zb zs lbs ubs ds mi) as G. rewrite Ef, En, Hnd in G. apply G; auto.
    - split; [auto|]. split; [auto|]. split; [auto|]. split; [eauto|].
      exists p, n, zb. cbn [ec_left ec_points ec_lb ec_ub]. repeat (split; auto).
  Qed.

  Lemma init7 km d :
    clusters km -> en_validate_init d = Ok tt ->
    (forall n, option_map as_int (d_n_iterations d) = Some (Some n) -> stays_between F n nd) ->
    exists s mi c, en_iterate km (en_start (en_init F ideal nd vars)) (Some d) (en_init F ideal nd vars) = (s, Ok (EReq mi c)) /\ Inv7 s c.
  Proof.
    intros Hkm Hv Hst. unfold en_validate_init in Hv.
    destruct (d_n_iterations d) as [ni|] eqn:Eni; [|discriminate].
    destruct (d_n_points d) as [np|] eqn:Enp; [|discriminate].
    destruct (as_int ni) as [zi|] eqn:Ezi; [|discriminate].
    destruct (Z.ltb_spec zi 1); [discriminate|].
    destruct (as_int np) as [zp|] eqn:Ezp; [|discriminate].
    destruct (Z.ltb_spec zp 1); [discriminate|].
    set (s1 := MkES F ideal nd vars nd ideal (IList (seq 0 (length F))) (Some nd) (Some zp) (Some zi)).
    destruct (next7 km s1 nd zi zp) as (mi & c & E & HI); auto; try reflexivity.
    - apply Hst. cbn. rewrite Ezi. reflexivity.
    - cbn. intros j Hj. apply in_seq in Hj. lia.
    - cbn. intros j row Hj. split; intros _.
      + rewrite Forall_forall in Hbelow. apply Hbelow. eapply nth_error_In; eauto.
      + apply in_seq. split; [lia|]. cbn. apply nth_error_Some. congruence.
    - destruct F as [|row F']; [contradiction|]. exists row. inversion Hbelow; subst. split; [left; auto|auto].
    - exists s1, mi, c. split; auto.
      cbn. unfold en_handle_initial, sbind, lift, smod. rewrite Eni, Enp. cbn. rewrite Ezi, Ezp. exact E.
  Qed.

  Lemma step7 km mi c d y n' s :
    Inv7 s c -> clusters km -> moves_to c d y n' -> ((1 < ec_left c)%Z -> stays_between F n' y) ->
    exists s', (exists o x, en_iterate km (EReq mi c) (Some d) s = (s', Ok (EStop o x)) /\ (ec_left c <= 1)%Z /\ o = y) \/
               (exists mi' c', en_iterate km (EReq mi c) (Some d) s = (s', Ok (EReq mi' c')) /\ Inv7 s' c' /\
                  (1 < ec_left c)%Z /\ es_pref s' = Some y /\ ec_left c' = n').
  Proof.
    intros (Ef & En & Ev & [np [Enp Hnp]] & p & n & zb & El & Hn & Ecl & Ep & Hlp & Hsp & Hzne & Hzb & Epts & Ebd & Hids)
           Hkm (Hsb & [i [Hi [Hi0 Ey]]] & Hch) Hsn.
    assert (Ez : exists z, In z zb /\ y = towards n p z).
    { rewrite Epts, nth_error_map in Ey. destruct (nth_error zb (Z.to_nat i)) as [z|] eqn:Ez; [|discriminate].
      cbn in Ey. injection Ey as <-. exists z. split; auto. eapply nth_error_In; eauto. }
    destruct Ez as (z & Hz & Eyz).
    rewrite Forall_forall in Hzb. destruct (Hzb z Hz) as [HzF Hzp].
    destruct (Hsp z HzF Hzp) as [Hzy Hyp]. rewrite <- Eyz in Hzy, Hyp.
    assert (Hly2 : length y = 2) by (rewrite (vle_len _ _ Hyp); auto).
    assert (Hynan : nan_free y) by (eapply vle_nan_r; eauto).
    assert (Epy : py_nth (ec_points c) i = Ok y) by (rewrite py_nth_nonneg by lia; apply at_ok; auto).
    destruct (en_bounds_ok _ _ _ _ _ Ebd) as (Fl & Fu & Hb).
    destruct (Forall2_nth_l _ _ _ _ _ Fl Ey) as [lb [Elb _]].
    destruct (Forall2_nth_l _ _ _ _ _ Fu Ey) as [ub [Eub _]].
    pose proof (Hb _ _ _ _ Ey Elb Eub) as Hb1.
    destruct (en_bounds1_ok _ _ _ _ _ Hb1) as (Hly & Hllb & Hlub & _).
    assert (Eplb : py_nth (ec_lb c) i = Ok lb) by (rewrite py_nth_nonneg by lia; apply at_ok; auto).
    assert (Epub : py_nth (ec_ub c) i = Ok ub) by (rewrite py_nth_nonneg by lia; apply at_ok; auto).
    destruct (Z.leb_spec n 1) as [Hn1|Hn1].
    - exists (set_left (Some 0%Z) (set_pref (Some y) s)). left.
      assert (Hst : exists x, en_stop (set_left (Some 0%Z) (set_pref (Some y) s)) y = Ok (EStop y x)).
      { unfold en_stop. cbn [es_vars es_front set_left set_pref]. rewrite Ev, Ef. destruct vars as [V|]; [|eauto].
        destruct (sub_rows F y) as (l & Hl & Ll). { eapply Forall_impl; [|exact HF]. cbn; intros; congruence. }
        rewrite Hl. cbn [rbind].
        match goal with |- context [npargmin ?l] => destruct (npargmin l) as [j|e] eqn:Ej end.
        - cbn [rbind]. pose proof (npargmin_lt _ _ Ej) as Hj. rewrite !map_length in Hj.
          destruct (nth_error V j) as [x|] eqn:EV.
          + unfold at_. rewrite EV. cbn [rbind]. eauto.
          + apply nth_error_None in EV. rewrite (Hvars V eq_refl) in EV. lia.
        - destruct l; [destruct F; [contradiction|discriminate]|discriminate]. }
      destruct Hst as [x Hq].
      exists y, x. cbn [en_iterate]. split; [|split; [lia|reflexivity]]. apply (en_forward_stop_eq km c d s i y n); auto.
    - destruct (en_reachable_spec 2 F lb ub) as (idx & Eidx & Hinc & Hidx); auto.
      assert (Hn'1 : (1 <= n')%Z) by (destruct Hch as [[_ ->] | (_ & _ & H)]; lia).
      set (s' := MkES (es_front s) (es_ideal s) (es_nadir s) (es_vars s) ub lb idx (Some y) (es_npoints s) (Some n')).
      assert (Hbelow_iff : forall j row, nth_error F j = Some row -> (In j (idx_list idx) <-> vle row y)).
      { intros j row Hj. rewrite Hidx.
        assert (HrF : In row F) by (eapply nth_error_In; eauto).
        rewrite <- (en_box_two L F y lb ub); auto.
        split.
        - intros (row' & E & Hbox). rewrite Hj in E. injection E as <-. auto.
        - intros Hbox. exists row. auto. }
      destruct (next7 km s' y n' np) as (mi' & c' & E & HI); auto.
      + apply Hsn. lia.
      + cbn. intros j Hj. apply Hidx in Hj. destruct Hj as (row & Hj & _). apply nth_error_Some. congruence.
      + exists z. auto.
      + exists s'. right. exists mi', c'. split; [|split; [auto|split; [lia|split; [reflexivity|]]]].
        * cbn [en_iterate]. rewrite (en_forward_step_eq km c d s i y n n' lb ub idx); auto.
          -- rewrite Ef. auto.
          -- destruct Hch as [[Hc ->]|(Hc & Hc2 & _)]; [left; split; auto; lia|right; auto].
        * destruct HI as (_ & _ & _ & _ & p2 & n2 & zb2 & El2 & _ & Ecl2 & _). cbn in El2. congruence.
  Qed.

  Lemma session_inv s q : session F ideal nd vars s q -> is_stop q \/ exists mi c, q = EReq mi c /\ Inv7 s c.
  Proof.
    induction 1 as [km d s q Hkm Hv Hst E|km mi c d y n' s s' q Hf IH Hkm Ha Hst E].
    - destruct (init7 km d Hkm Hv Hst) as (s1 & mi & c & E1 & HI). rewrite E in E1. inversion E1; subst. eauto.
    - destruct IH as [(o & x & Hq)|(mi' & c' & Hq & HI)]; [discriminate|]. inversion Hq; subst.
      destruct (step7 km mi' c' d y n' s HI Hkm Ha Hst) as (s1 & [(o & x & E1 & _)|(mi2 & c2 & E1 & HI2 & _)]);
        rewrite E in E1; inversion E1; subst.
      + left. red. eauto.
      + right. eauto.
  Qed.

  Lemma progress7 s mi c : session F ideal nd vars s (EReq mi c) ->
    forall km d y n', clusters km -> moves_to c d y n' -> ((1 < ec_left c)%Z -> stays_between F n' y) ->
    exists s' q, en_iterate km (EReq mi c) (Some d) s = (s', Ok q) /\
      ((ec_left c <= 1)%Z /\ (exists x, q = EStop y x) \/
       (1 < ec_left c)%Z /\
       exists mi' c', q = EReq mi' c' /\ ec_left c' = n' /\
         (forall j row, nth_error F j = Some row -> (In j (idx_list (es_idx s')) <-> vle row y)) /\
         ec_points c' <> [] /\
         (forall v, In v (ec_points c') -> exists z, In z F /\ vle z v /\ vle v y)).
  Proof.
    intros Hf km d y n' Hkm Ha Hst.
    destruct (session_inv _ _ Hf) as [(o & x & Hq)|(mi' & c' & Hq & HI)]; [discriminate|]. inversion Hq; subst mi' c'.
    destruct (step7 km mi c d y n' s HI Hkm Ha Hst) as (s' & [(o & x & E1 & E2 & ->)|(mi2 & c2 & E1 & HI2 & Hl & Ep2 & El')]).
    - exists s', (EStop y x). split; auto. left. eauto.
    - exists s', (EReq mi2 c2). split; auto. right. split; auto. exists mi2, c2.
      destruct HI2 as (Ef2 & En2 & Ev2 & _ & p2 & n2 & zb2 & El2 & Hn2 & Ecl2 & Ep2' & Hlp2 & Hsp2 & Hzne2 & Hzb2 & Epts2 & Ebd2 & Hids2).
      rewrite Ep2 in Ep2'. injection Ep2' as <-.
      repeat split; auto.
      + intros Hj. apply (Hids2 j row H); auto.
      + intros Hj. apply (Hids2 j row H); auto.
      + rewrite Epts2. destruct zb2; [contradiction|discriminate].
      + intros v Hv. rewrite Epts2 in Hv. apply in_map_iff in Hv.
        destruct Hv as [z [<- Hz]]. rewrite Forall_forall in Hzb2. destruct (Hzb2 z Hz) as [HzF Hzy].
        exists z. split; auto.
  Qed.

  (** The first answer. *)
  Lemma progress7_init km d : clusters km -> en_validate_init d = Ok tt ->
    (forall n, option_map as_int (d_n_iterations d) = Some (Some n) -> stays_between F n nd) ->
    exists s mi c, en_iterate km (en_start (en_init F ideal nd vars)) (Some d) (en_init F ideal nd vars) = (s, Ok (EReq mi c)) /\
      ec_points c <> [] /\ (forall v, In v (ec_points c) -> exists z, In z F /\ vle z v /\ vle v nd).
  Proof.
    intros Hkm Hv Hst. destruct (init7 km d Hkm Hv Hst) as (s & mi & c & E & HI). exists s, mi, c. split; auto.
    assert (Ep : es_pref s = Some nd).
    { cbn in E. destruct (en_initial_ok _ _ _ _ _ E) as (ni & np & _ & _ & Es & _). subst s. reflexivity. }
    destruct HI as (_ & _ & _ & _ & p & n & zb & El & Hn & Ecl & Ep' & Hlp & Hsp & Hzne & Hzb & Epts & _).
    rewrite Ep in Ep'. injection Ep' as <-. rewrite Epts. split; [destruct zb; [contradiction|discriminate]|].
    intros v Hin. apply in_map_iff in Hin. destruct Hin as (z & <- & Hz). rewrite Forall_forall in Hzb. destruct (Hzb z Hz). exists z. auto.
  Qed.
End Any.

(** ** Doubles *)
Local Open Scope R_scope.
Local Notation rnd := (round radix2 (SpecFloat.fexp FloatOps.prec FloatOps.emax) (BinarySingleNaN.round_mode BinarySingleNaN.mode_NE)).
Local Notation fmt := (generic_format radix2 (SpecFloat.fexp FloatOps.prec FloatOps.emax)).
Local Instance Vex7 : Valid_exp (SpecFloat.fexp FloatOps.prec FloatOps.emax) := BinarySingleNaN.fexp_correct FloatOps.prec FloatOps.emax PrimFloat.Hprec.

Lemma rnd_ge_fmt x y : fmt y -> y <= x -> y <= rnd x.
Proof. intros Hy H. apply round_ge_generic; auto; [exact Vex7|apply BinarySingleNaN.valid_rnd_round_mode]. Qed.
Lemma half_fmt x : fmt x -> x = 0 \/ bpow radix2 (-1021) <= Rabs x -> fmt (/ 2 * x).
Proof.
  intros Hx [->|Hb]; [rewrite Rmult_0_r; apply generic_format_0|].
  assert (Hx0 : x <> 0). { intros ->. rewrite Rabs_R0 in Hb. pose proof (bpow_gt_0 radix2 (-1021)). lra. }
  change (/ 2) with (bpow radix2 (-1)). rewrite Rmult_comm.
  change (SpecFloat.fexp FloatOps.prec FloatOps.emax) with (FLT_exp (-1074) 53) in *.
  apply generic_format_FLT. apply FLT_format_generic in Hx; [|reflexivity]. destruct Hx as [f E1 E2 E3].
  set (g := Float radix2 (Fnum f) (Fexp f - 1)).
  assert (Eg : F2R g = x * bpow radix2 (-1)).
  { unfold g, F2R. cbn [Fnum Fexp]. rewrite E1. unfold F2R. rewrite Rmult_assoc, <- bpow_plus. reflexivity. }
  destruct (Z_le_gt_dec (-1074) (Fexp f - 1)) as [H|H].
  - exists g; auto.
  - (* exponent -1074: the number is at least 2^-1021 = 2^53 * 2^-1074, so the mantissa would be too large *)
    exfalso. assert (Fexp f = -1074)%Z by lia.
    assert (HH : Rabs x < bpow radix2 (-1021)).
    { rewrite E1. unfold F2R. rewrite H0, Rabs_mult, (Rabs_pos_eq (bpow radix2 (-1074))) by apply bpow_ge_0.
      replace (bpow radix2 (-1021)) with (bpow radix2 53 * bpow radix2 (-1074)) by (rewrite <- bpow_plus; reflexivity).
      apply Rmult_lt_compat_r; [apply bpow_gt_0|]. rewrite <- abs_IZR. change (bpow radix2 53) with (IZR (2 ^ 53)). apply IZR_lt. exact E2. }
    lra.
Qed.
Lemma coef_half : PrimFloat.div (f64_ofZ (2 - 1)) (f64_ofZ 2) = 0.5%float /\ PrimFloat.div (f64_ofZ 1) (f64_ofZ 2) = 0.5%float.
Proof. split; vm_compute; reflexivity. Qed.
Lemma fval_half : ffin 0.5%float /\ fval 0.5%float = / 2.
Proof.
  split; [reflexivity|]. destruct coef_half as [_ E]. rewrite <- E.
  destruct (f64_ofZ_exact 1) as [F1 V1]; [lia|]. destruct (f64_ofZ_exact 2) as [F2 V2]; [lia|].
  destruct (f64_div_err (f64_ofZ 1) (f64_ofZ 2) F1) as [_ ->].
  - rewrite V2. lra.
  - rewrite V1, V2. replace (1 / 2) with (bpow radix2 (-1)) by (cbn; lra). rewrite Rabs_pos_eq by apply bpow_ge_0. apply bpow_le. lia.
  - rewrite V1, V2. replace (1 / 2) with (bpow radix2 (-1)) by (cbn; lra).
    rewrite round_generic; [cbn; lra|apply BinarySingleNaN.valid_rnd_round_mode|apply fmt_bpow; lia].
Qed.
Lemma fstep_2 (a b : F64) : ffin a -> ffin b -> Rabs (fval a) <= bpow radix2 1020 -> Rabs (fval b) <= bpow radix2 1020 ->
  halvable a -> halvable b -> fval b <= fval a ->
  ffin (fstep 2 a b) /\ fval b <= fval (fstep 2 a b) <= fval a.
Proof.
  intros Fa Fb Ba Bb Ha Hb Hab. unfold fstep. destruct coef_half as [-> ->]. destruct fval_half as [Fh Vh].
  assert (Big : forall x, Rabs x <= bpow radix2 1020 -> Rabs (/ 2 * x) <= bpow radix2 1020).
  { intros x Hx. rewrite Rabs_mult, (Rabs_pos_eq (/ 2)) by lra. pose proof (Rabs_pos x). lra. }
  assert (B1 : bpow radix2 1020 + bpow radix2 1020 <= bpow radix2 1023).
  { replace (bpow radix2 1020 + bpow radix2 1020) with (bpow radix2 1021) by (rewrite (bpow_plus radix2 1 1020 : bpow radix2 1021 = _); cbn [bpow]; change (IZR (Z.pow_pos radix2 1)) with 2; lra).
    apply bpow_le. lia. }
  assert (B2 : bpow radix2 1020 <= bpow radix2 1023) by (apply bpow_le; lia).
  assert (M : forall x : F64, ffin x -> Rabs (fval x) <= bpow radix2 1020 -> halvable x ->
    ffin (PrimFloat.mul 0.5%float x) /\ fval (PrimFloat.mul 0.5%float x) = / 2 * fval x).
  { intros x Fx Bx Hx. destruct (f64_mul_err 0.5%float x Fh Fx) as [F V].
    - rewrite Vh. eapply Rle_trans; [apply Big; exact Bx|exact B2].
    - split; auto. rewrite V, Vh. rewrite round_generic; auto; [apply BinarySingleNaN.valid_rnd_round_mode|]. apply half_fmt; auto. apply fval_format. }
  destruct (M a Fa Ba Ha) as [F1 V1]. destruct (M b Fb Bb Hb) as [F2 V2].
  destruct (f64_add_err _ _ F1 F2) as [F V].
  - rewrite V1, V2. eapply Rle_trans; [apply Rabs_triang|]. pose proof (Big _ Ba). pose proof (Big _ Bb). lra.
  - split; [exact F|]. rewrite V, V1, V2. split; [apply rnd_ge_fmt; [apply fval_format|lra]|apply rnd_le_fmt; [apply fval_format|lra]].
Qed.
Lemma fstep_clear n (a b : F64) : (2 <= n <= 2 ^ 53)%Z -> ffin a -> ffin b -> Rabs (fval a) <= bpow radix2 1020 -> Rabs (fval b) <= bpow radix2 1020 ->
  IZR n * (bpow radix2 (-51) * Rmax (Rabs (fval a)) (Rabs (fval b)) + bpow radix2 (-1073)) <= fval a - fval b ->
  ffin (fstep n a b) /\ fval b <= fval (fstep n a b) <= fval a.
Proof.
  intros Hn Fa Fb Ba Bb H. destruct (fstep_close n a b) as [F E]; auto; [lia|]. split; [exact F|].
  destruct (coef_facts n) as (C1 & C2 & C3); [lia|].
  set (M := Rmax (Rabs (fval a)) (Rabs (fval b))) in *.
  set (c := IZR (n - 1) / IZR n) in *. set (d := 1 / IZR n) in *.
  set (e := bpow radix2 (-51) * M + bpow radix2 (-1073)) in *.
  assert (E' : Rabs (fval (fstep n a b) - (c * fval a + d * fval b)) <= e).
  { eapply Rle_trans; [exact E|]. unfold e. apply Rplus_le_compat_r. apply Rmult_le_compat_l; [apply bpow_ge_0|].
    pose proof (Rmax_l (Rabs (fval a)) (Rabs (fval b))). pose proof (Rmax_r (Rabs (fval a)) (Rabs (fval b))). fold M in H0, H1.
    replace M with (c * M + d * M) by (rewrite <- Rmult_plus_distr_r, C3; ring).
    apply Rplus_le_compat; apply Rmult_le_compat_l; auto. }
  assert (Hn2 : 2 <= IZR n) by (apply IZR_le; lia).
  assert (He : 0 <= e). { eapply Rle_trans; [apply Rabs_pos|exact E']. }
  assert (Hd : e <= d * (fval a - fval b)).
  { unfold d. apply Rmult_le_reg_l with (IZR n); [lra|].
    replace (IZR n * (1 / IZR n * (fval a - fval b))) with (fval a - fval b) by (field; lra). exact H. }
  assert (Hc : d <= c).
  { unfold c, d. unfold Rdiv. apply Rmult_le_compat_r; [left; apply Rinv_0_lt_compat; lra|]. apply IZR_le. lia. }
  assert (Hab : 0 <= fval a - fval b). { eapply Rle_trans; [|exact H]. apply Rmult_le_pos; lra. }
  assert (Hc2 : d * (fval a - fval b) <= c * (fval a - fval b)) by (apply Rmult_le_compat_r; auto).
  apply Rabs_le_inv in E'.
  assert (X1 : c * fval a + d * fval b = fval b + c * (fval a - fval b)).
  { replace d with (1 - c) by lra. ring. }
  assert (X2 : c * fval a + d * fval b = fval a - d * (fval a - fval b)).
  { replace c with (1 - d) by lra. ring. }
  lra.
Qed.

Lemma towards_fstep n (p z : list F64) : towards n p z = zipw (fstep n) p z.
Proof. reflexivity. Qed.
Lemma leb_of_val (a b : F64) : ffin a -> ffin b -> fval a <= fval b -> @nleb F64 a b = true.
Proof. intros Fa Fb H. change (PrimFloat.leb a b = true). rewrite f64_leb_val by auto. apply Rle_bool_true. auto. Qed.
Lemma val_of_leb (a b : F64) : ffin a -> ffin b -> @nleb F64 a b = true -> fval a <= fval b.
Proof. intros Fa Fb H. change (PrimFloat.leb a b = true) in H. rewrite f64_leb_val in H by auto. destruct (Rle_bool_spec (fval a) (fval b)); auto; discriminate. Qed.

Lemma safe_between n (z p : list F64) : (1 <= n <= 2 ^ 53)%Z -> fin_below 1020 p -> fin_below 1020 z ->
  vle z p -> rounding_safe n z p -> vle z (towards n p z) /\ vle (towards n p z) p.
Proof.
  intros Hn Hp Hz Hle Hs. rewrite towards_fstep.
  assert (Hc : Forall2 (fun b a : F64 => fval b <= fval (fstep n a b) <= fval a /\ ffin (fstep n a b)) z p).
  { clear -Hn Hp Hz Hle Hs. revert Hp Hz Hs. induction Hle as [|b a z p H Hle IH]; intros Hp Hz Hs; constructor.
    - destruct (Forall_inv Hp) as [Fa Ba]. destruct (Forall_inv Hz) as [Fb Bb].
      destruct Hs as [->|[(-> & H1 & H2)|H1]].
      + destruct (fstep_last a b Fa Fb) as [F E]. rewrite E. split; auto. split; [lra|]. apply val_of_leb; auto.
      + destruct (fstep_2 a b) as [F E]; auto; [apply (Forall_inv H2)|apply (Forall_inv H1)|apply val_of_leb; auto].
      + inversion H1 as [|? ? ? ? H2 H3]; subst. destruct (Z.eq_dec n 1) as [->|Hn1].
        * destruct (fstep_last a b Fa Fb) as [F E]. rewrite E. split; auto. split; [lra|]. apply val_of_leb; auto.
        * destruct (fstep_clear n a b) as [F E]; auto. lia.
    - apply IH; [apply (Forall_inv_tail Hp)|apply (Forall_inv_tail Hz)|].
      destruct Hs as [->|[(-> & H1 & H2)|H1]]; [left; auto|right; left; split; auto; split; [apply (Forall_inv_tail H1)|apply (Forall_inv_tail H2)]|].
      right. right. inversion H1; subst. auto. }
  clear Hs Hle. revert Hp Hz. induction Hc as [|b a z p [H F] Hc IH]; intros Hp Hz; cbn [zipw]; [split; constructor|].
  destruct (Forall_inv Hp) as [Fa Ba]. destruct (Forall_inv Hz) as [Fb Bb].
  destruct IH as [I1 I2]; [apply (Forall_inv_tail Hp)|apply (Forall_inv_tail Hz)|].
  split; constructor; auto; apply leb_of_val; auto; apply H.
Qed.
Lemma safe_stays n (F : list (list F64)) (p : list F64) : (1 <= n <= 2 ^ 53)%Z -> fin_below 1020 p -> Forall (fin_below 1020) F ->
  (forall z, In z F -> vle z p -> rounding_safe n z p) -> stays_between F n p.
Proof.
  intros Hn Hp HF Hs z Hz Hle. rewrite Forall_forall in HF. apply safe_between; auto.
Qed.

Lemma leb_squeeze_fin (a x b : F64) : ffin a -> ffin b -> @nleb F64 a x = true -> @nleb F64 x b = true -> ffin x.
Proof.
  unfold ffin. intros Fa Fb H1 H2. change (PrimFloat.leb a x = true) in H1. change (PrimFloat.leb x b = true) in H2.
  rewrite PrimFloat.leb_equiv in H1, H2. rewrite PrimFloat.is_finite_equiv in *.
  destruct (PrimFloat.Prim2B x) as [s|s| |s m e B] eqn:Ex; auto; exfalso.
  - destruct s; [destruct (PrimFloat.Prim2B a) as [sa|sa| |sa ma ea Ba]|destruct (PrimFloat.Prim2B b) as [sa|sa| |sa ma ea Ba]]; try discriminate; destruct sa; discriminate.
Qed.
Lemma squeeze_below e (a x b : list F64) : fin_below e a -> fin_below e b -> vle a x -> vle x b -> fin_below e x.
Proof.
  intros Ha Hb Hax. revert b Hb Ha. induction Hax as [|u0 v a x H Hax IH]; intros b Hb Ha Hxb; inversion Hxb as [|? w ? b' H2 Hxb']; subst; constructor.
  - destruct (Forall_inv Ha) as [Fu Bu]. destruct (Forall_inv Hb) as [Fw Bw].
    assert (Fv : ffin v) by exact (leb_squeeze_fin u0 v w Fu Fw H H2). split; auto.
    apply val_of_leb in H; auto. apply val_of_leb in H2; auto. apply Rabs_le_inv in Bu. apply Rabs_le_inv in Bw. apply Rabs_le. lra.
  - apply (IH b'); auto; [apply (Forall_inv_tail Hb)|apply (Forall_inv_tail Ha)].
Qed.
Lemma fin_nan_free e (v : list F64) : fin_below e v -> nan_free v.
Proof. intros H. eapply Forall_impl; [|exact H]. cbn. intros x [F _]. apply ffin_notnan. exact F. Qed.
