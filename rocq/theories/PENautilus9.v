(** * E-NAUTILUS: progress with any number of objectives (C14). *)
From Coq Require Import ZArith List Bool Lia Reals Lra.
From Verif Require Import Num NumXR Py Np Spec NpFacts XRFacts MENautilus PENautilus PENautilus2 PENautilus3 SENautilus PENautilus7.
Import ListNotations.

Lemma increasing_NoDup9 l : increasing l -> NoDup l.
Proof.
  unfold increasing. induction 1 as [|x l Hs IH Hx]; constructor; auto.
  intros Hin. rewrite Forall_forall in Hx. specialize (Hx x Hin). lia.
Qed.

Section Any.
  Context {N : NumOps}.
  Notation vec := (list N).
  Variables (F : list vec) (ideal nd : vec) (vars : option (list vec)).
  Hypothesis HF : is_matrix (length nd) F.

  Definition Inv9 (s : en_state N) (c : en_content N) : Prop :=
    es_front s = F /\ es_nadir s = nd /\ es_vars s = vars /\
    (exists np, es_npoints s = Some np /\ (1 <= np)%Z) /\
    es_left s = Some (ec_left c) /\ (1 <= ec_left c)%Z /\
    en_bounds F (length nd) (ec_points c) = Ok (ec_lb c, ec_ub c).

  Lemma next_inv9 km s q np n : next_spec km s q ->
    es_front s = F -> es_nadir s = nd -> es_vars s = vars -> es_npoints s = Some np -> (1 <= np)%Z -> es_left s = Some n -> (1 <= n)%Z ->
    exists mi c, q = EReq mi c /\ Inv9 s c.
  Proof.
    intros (np' & p & n' & zbars & zs & lbs & ubs & ds & mi & Enp' & Ep & En' & Er & Ei & Eb & Ed & Em & ->) Ef En Ev Enp Hnp El Hn.
    rewrite El in En'. injection En' as <-. rewrite Ef, En in Eb.
    do 2 eexists. split; [reflexivity|]. split; [auto|]. split; [auto|]. split; [auto|]. split; [eauto|]. cbn. auto.
  Qed.

  Lemma forward_inv s q : forward_session F ideal nd vars s q -> is_stop q \/ exists mi c, q = EReq mi c /\ Inv9 s c.
  Proof.
    induction 1 as [km d s q Hv E|km mi c d y n' s s' q Hf IH Ha E].
    - right. cbn in E. destruct (en_initial_ok _ _ _ _ _ E) as (ni & np & Eni & Enp & -> & Hx).
      unfold en_validate_init in Hv. rewrite Eni, Enp in Hv.
      destruct (as_int ni) as [zi|] eqn:Ezi; [|discriminate].
      destruct (Z.ltb_spec zi 1); [discriminate|].
      destruct (as_int np) as [zp|] eqn:Ezp; [|discriminate].
      destruct (Z.ltb_spec zp 1); [discriminate|].
      eapply next_inv9; [exact Hx|reflexivity|reflexivity|reflexivity|reflexivity|auto|reflexivity|auto].
    - destruct IH as [(o & x & Hq)|(mi' & c' & Hq & HI)]; [discriminate|]. injection Hq as <- <-.
      destruct HI as (Ef & En & Ev & [np [Enp Hnp]] & El & Hl & Hb). destruct Ha as (Hsb & [i [Hi [Hi0 Ey]]] & Hch).
      cbn [en_iterate] in E.
      destruct (en_forward_ok _ _ _ _ _ _ E Hsb) as (i' & p & n & Ei' & Ep & En' & [(Hn & Es & Hst)|(Hn & lb & ub & ri & ch & n2 & _ & _ & _ & Ec & En2 & Es & Hx)]).
      + left. eapply en_stop_is_stop; eauto.
      + right. subst s'. rewrite El in En'. injection En' as <-.
        assert (Hn2 : (1 <= n2)%Z).
        { destruct Hch as [[Hc _]|(Hc & Hc2 & Hc3)]; rewrite Hc in Ec; injection Ec as <-; [lia|]. congruence. }
        eapply next_inv9; [exact Hx|cbn; auto|cbn; auto|cbn; auto|cbn; eauto|auto|reflexivity|auto].
  Qed.

  (** Whatever the chosen point: each point shown next is on the way from it to a front
      row inside the bounds reported for it. *)
  Lemma where9 s mi c : forward_session F ideal nd vars s (EReq mi c) ->
    forall km d y n' lb ub s' mi' c', moves_to c d y n' -> chosen_bounds c d lb ub ->
    en_iterate km (EReq mi c) (Some d) s = (s', Ok (EReq mi' c')) ->
    length y = length nd /\ ec_left c' = n' /\
    forall v, In v (ec_points c') -> exists z, In z F /\ in_box z lb ub /\ v = towards n' y z.
  Proof.
    intros Hf km d y n' lb ub s' mi' c' (Hsb & [i [Hi [Hi0 Ey]]] & Hch) (i' & Hi' & Elb & Eub) E.
    rewrite Hi in Hi'. injection Hi' as <-.
    destruct (forward_inv _ _ Hf) as [(o & x & Hq)|(mi1 & c1 & Hq & HI)]; [discriminate|]. injection Hq as <- <-.
    destruct HI as (Ef & En & Ev & [np [Enp Hnp]] & El & Hl & Hbd).
    assert (Epy : py_nth (ec_points c) i = Ok y) by (rewrite py_nth_nonneg by lia; apply at_ok; auto).
    assert (Eplb : py_nth (ec_lb c) i = Ok lb) by (rewrite py_nth_nonneg by lia; apply at_ok; auto).
    assert (Epub : py_nth (ec_ub c) i = Ok ub) by (rewrite py_nth_nonneg by lia; apply at_ok; auto).
    destruct (en_bounds_ok _ _ _ _ _ Hbd) as (_ & _ & Hb).
    pose proof (Hb _ _ _ _ Ey Elb Eub) as Hb1.
    destruct (en_bounds1_ok _ _ _ _ _ Hb1) as (Hly & Hllb & Hlub & _). split; [auto|].
    cbn [en_iterate] in E.
    destruct (en_forward_ok _ _ _ _ _ _ E Hsb) as (i' & p & n & Ei' & Ep & En' & [(Hn & Es & Hst)|(Hn & lb' & ub' & ri & ch & n2 & Elb' & Eub' & Eri & Ec & En2 & Es & Hx)]).
    - destruct (en_stop_is_stop _ _ _ Hst) as (o & x & Hq). discriminate.
    - rewrite Hi in Ei'. injection Ei' as <-. rewrite Epy in Ep. injection Ep as <-.
      rewrite Eplb in Elb'. injection Elb' as <-. rewrite Epub in Eub'. injection Eub' as <-.
      rewrite El in En'. injection En' as <-.
      assert (n2 = n').
      { destruct Hch as [[Hc ->]|(Hc & Hc2 & _)]; rewrite Hc in Ec; injection Ec as <-; [auto|congruence]. }
      subst n2 s'.
      destruct Hx as (np' & p' & n3 & zb & zs & lbs & ubs & ds & mi2 & Enp' & Ep' & En3 & Er & Ei & Eb & Ed & Em & Hq).
      cbn in Enp', Ep', En3, Er, Ei, Eb, Ed. injection Ep' as <-. injection En3 as <-. injection Hq as <- ->. cbn [ec_left ec_points].
      split; [reflexivity|]. intros v Hv. rewrite Ef in Eri, Er.
      destruct (en_reachable_spec (length nd) F lb ub) as (idx & Eidx & Hinc & Hidx); auto.
      rewrite Eri in Eidx. injection Eidx as <-.
      pose proof (en_representatives_rows _ _ _ _ _ Er) as Hzr. rewrite Forall_forall in Hzr.
      assert (Hzl : Forall (fun z => length y = length z) zb).
      { apply Forall_forall. intros z Hz. destruct (Hzr z Hz) as (j & _ & Hj). apply nth_error_In in Hj.
        unfold is_matrix in HF. rewrite Forall_forall in HF. rewrite (HF z Hj). auto. }
      assert (Hz0 : n' <> 0%Z) by (unfold en_intermediate in Ei; destruct (Z.eqb_spec n' 0); [discriminate|auto]).
      rewrite (inter_eq n' y zb Hz0 Hzl) in Ei. injection Ei as <-.
      apply in_map_iff in Hv. destruct Hv as (z & <- & Hz). destruct (Hzr z Hz) as (j & Hj & Hzj).
      exists z. split; [eapply nth_error_In; eauto|]. split; [|reflexivity].
      apply Hidx in Hj. destruct Hj as (row & Hrow & Hbx). rewrite Hzj in Hrow. injection Hrow as <-. exact Hbx.
  Qed.

  Hypothesis Hk : (2 <= length nd)%nat.
  Hypothesis Hnan : nan_free_m F.
  Hypothesis Hne : F <> [].
  Hypothesis Hvars : forall V, vars = Some V -> length V = length F.
  Hypothesis L : OrdLaws N.

  Lemma vle_tr (a b c : vec) : vle a b -> vle b c -> vle a c.
  Proof.
    intros H. revert c. induction H as [|x y a b Hxy H IH]; intros c Hc; inversion Hc as [|? z ? c' Hz Hc']; subst; constructor; auto.
    - eapply (ol_trans _ L); eauto.
    - apply IH. auto.
  Qed.

  (** Reported upper bounds not above the point: the box is what lies below the point,
      and it is not empty. *)
  Lemma box_below point lb ub : en_bounds1 F (length nd) point = Ok (lb, ub) -> vle ub point ->
    (forall row, In row F -> (in_box row lb ub <-> vle row point)) /\ exists row, In row F /\ vle row point.
  Proof.
    intros H Hub. destruct (en_bounds1_ok _ _ _ _ _ H) as (Hp & Hl & Hu & _).
    destruct (en_bounds1_spec L _ _ _ _ _ HF Hnan H) as [Hspec Hbox]. split.
    - intros row Hrow. split; [|apply Hbox; auto]. intros [_ Hhi]. eapply vle_tr; eauto.
    - destruct lb as [|lo lb']; [cbn in Hl; lia|]. destruct ub as [|hi ub']; [cbn in Hu; lia|].
      destruct (Hspec 0%nat lo hi eq_refl eq_refl) as (Hlh & (row & Hrow & Hok & Hr0) & _ & _).
      exists row. split; auto. apply vle_nth.
      assert (Hlr : length row = length nd) by (unfold is_matrix in HF; rewrite Forall_forall in HF; auto).
      split; [congruence|]. intros j x y Hx Hy. destruct j as [|j].
      + rewrite Hr0 in Hx. injection Hx as <-. inversion Hub as [|? z0 ? ? Hz0 _]; subst. cbn in Hy. injection Hy as <-.
        eapply (ol_trans _ L); eauto.
      + eapply (Hok (S j)); eauto.
  Qed.

  Lemma next9 km s p n np :
    clusters km -> es_front s = F -> es_nadir s = nd -> es_vars s = vars ->
    es_npoints s = Some np -> (1 <= np)%Z -> es_left s = Some n -> (1 <= n)%Z ->
    es_pref s = Some p -> length p = length nd -> stays_between F n p ->
    (forall j, In j (idx_list (es_idx s)) -> (j < length F)%nat) ->
    (forall j row, nth_error F j = Some row -> (In j (idx_list (es_idx s)) <-> vle row p)) ->
    (exists row, In row F /\ vle row p) ->
    exists mi c zb, en_next km s = (s, Ok (EReq mi c)) /\ ec_left c = n /\
      zb <> [] /\ Forall (fun z => In z F /\ vle z p) zb /\ ec_points c = map (towards n p) zb.
  Proof.
    intros [Hkm Hkt] Ef En Ev Enp Hnp El Hn Ep Hlp Hst Hlt Hids [row0 [Hrow0 Hrow0p]].
    destruct (take_lt F (idx_list (es_idx s))) as [rows Hrows]; [apply Forall_forall; auto|].
    assert (Hnonempty : idx_list (es_idx s) <> []).
    { apply In_nth_error in Hrow0. destruct Hrow0 as [j Hj].
      assert (H : In j (idx_list (es_idx s))) by (apply (Hids j row0 Hj); auto).
      intros E. rewrite E in H. contradiction. }
    assert (Hrep : exists zbars, en_representatives km F (es_idx s) np = Ok zbars).
    { unfold en_representatives. rewrite Hrows. cbn [rbind].
      destruct (Z.ltb_spec np (Z.of_nat (length (idx_list (es_idx s))))) as [H|H]; [|eauto].
      apply take_ok in Hrows. pose proof (Forall2_len _ _ _ Hrows) as HL.
      destruct (Hkt rows np) as [cl Hcl]; [lia|]. rewrite Hcl. cbn [rbind].
      apply take_lt. apply (Hkm _ _ _ Hcl). }
    destruct Hrep as [zb Hrep].
    pose proof (en_representatives_rows _ _ _ _ _ Hrep) as Hzr.
    destruct (en_representatives_spec _ _ _ _ _ Hkm Hnp Hrep) as [_ Hzlen].
    assert (Hzne : zb <> []).
    { intros E. subst zb. cbn in Hzlen. destruct (idx_list (es_idx s)); [contradiction|]. cbn [length] in Hzlen. lia. }
    assert (Hzb2 : Forall (fun z => In z F /\ vle z p) zb).
    { eapply Forall_impl; [|exact Hzr]. intros z [i [Hi Hz]]. split; [eapply nth_error_In; eauto|]. apply (Hids i z Hz). auto. }
    assert (Hzl : Forall (fun z => length z = length nd) zb).
    { eapply Forall_impl; [|exact Hzb2]. intros z [Hz _]. unfold is_matrix in HF. rewrite Forall_forall in HF. auto. }
    set (zs := map (towards n p) zb).
    assert (Hmid : Forall (fun z => vle z (towards n p z) /\ vle (towards n p z) p) zb).
    { eapply Forall_impl; [|exact Hzb2]. intros z [Hz1 Hz2]. apply Hst; auto. }
    assert (Hint : en_intermediate p zb n = Ok zs).
    { apply inter_eq; [lia|]. eapply Forall_impl; [|exact Hzl]. cbn; intros; congruence. }
    assert (Hbd : exists lbs ubs, en_bounds F (length nd) zs = Ok (lbs, ubs)).
    { unfold en_bounds.
      assert (exists bs, rseq (map (en_bounds1 F (length nd)) zs) = Ok bs) as [bs Hbs].
      { unfold zs. clear - HF Hzb2 Hzl Hmid Hlp. induction zb as [|z zb' IH]; [exists []; reflexivity|].
        cbn [map rseq].
        inversion Hzb2 as [|? ? [HzF Hzp] Hzb2']; subst. inversion Hzl; subst. inversion Hmid as [|? ? [Hm1 Hm2] Hmid']; subst.
        destruct IH as [bs Hbs]; auto.
        destruct (en_bounds1_defined (length nd) F (towards n p z)) as (lb & ub & Hb); [exact HF| | |].
        - rewrite towards_len; congruence.
        - intros r Hr. exists z. split; auto. intros j x y _ Hx Hy. apply vle_nth in Hm1. destruct Hm1 as [_ Hm1]. eauto.
        - rewrite Hb, Hbs. simpl. eauto. }
      rewrite Hbs. simpl. eauto. }
    destruct Hbd as (lbs & ubs & Hbd).
    destruct (dist_ok nd zs zb) as [ds Hds].
    { apply map_length. }
    { unfold zs. rewrite Forall_map. eapply Forall_impl; [|exact Hzl]. cbn; intros. rewrite towards_len; congruence. }
    { exact Hzl. }
    assert (Hmi : exists mi, en_max_index zs = Ok mi).
    { unfold en_max_index, zs. destruct zb as [|z [|z2 zb']]; cbn [map]; eauto.
      assert (Hz1 : length z = length nd) by (inversion Hzl; auto). rewrite towards_len by congruence. rewrite Hlp. destruct (Nat.eqb_spec (length nd) 1); [lia|eauto]. }
    destruct Hmi as [mi Hmi].
    exists mi, (MkEC (es_ideal s) nd zs lbs ubs n ds), zb. split.
    - pose proof (en_next_eq km s np p n zb zs lbs ubs ds mi) as G. rewrite Ef, En in G. apply G; auto.
    - cbn. auto.
  Qed.

  Lemma progress9 s mi c : forward_session F ideal nd vars s (EReq mi c) ->
    forall km d y n' lb ub, clusters km -> moves_to c d y n' -> chosen_bounds c d lb ub ->
    ((1 < ec_left c)%Z -> vle ub y /\ stays_between F n' y) ->
    exists s' q, en_iterate km (EReq mi c) (Some d) s = (s', Ok q) /\
      ((ec_left c <= 1)%Z /\ (exists x, q = EStop y x) \/
       (1 < ec_left c)%Z /\
       exists mi' c', q = EReq mi' c' /\ ec_left c' = n' /\
         (forall j row, nth_error F j = Some row -> (In j (idx_list (es_idx s')) <-> vle row y)) /\
         ec_points c' <> [] /\
         (forall v, In v (ec_points c') -> exists z, In z F /\ vle z v /\ vle v y)).
  Proof.
    intros Hf km d y n' lb ub Hkm (Hsb & [i [Hi [Hi0 Ey]]] & Hch) (i' & Hi' & Elb & Eub) Hcond.
    rewrite Hi in Hi'. injection Hi' as <-.
    destruct (forward_inv _ _ Hf) as [(o & x & Hq)|(mi' & c' & Hq & HI)]; [discriminate|]. injection Hq as <- <-.
    destruct HI as (Ef & En & Ev & [np [Enp Hnp]] & El & Hl & Hbd).
    assert (Epy : py_nth (ec_points c) i = Ok y) by (rewrite py_nth_nonneg by lia; apply at_ok; auto).
    assert (Eplb : py_nth (ec_lb c) i = Ok lb) by (rewrite py_nth_nonneg by lia; apply at_ok; auto).
    assert (Epub : py_nth (ec_ub c) i = Ok ub) by (rewrite py_nth_nonneg by lia; apply at_ok; auto).
    destruct (en_bounds_ok _ _ _ _ _ Hbd) as (_ & _ & Hb).
    pose proof (Hb _ _ _ _ Ey Elb Eub) as Hb1.
    destruct (en_bounds1_ok _ _ _ _ _ Hb1) as (Hly & Hllb & Hlub & _).
    destruct (Z.leb_spec (ec_left c) 1) as [Hn1|Hn1].
    - exists (set_left (Some 0%Z) (set_pref (Some y) s)).
      assert (Hst : exists x, en_stop (set_left (Some 0%Z) (set_pref (Some y) s)) y = Ok (EStop y x)).
      { unfold en_stop. cbn [es_vars es_front set_left set_pref]. rewrite Ev, Ef. destruct vars as [V|]; [|eauto].
        destruct (sub_rows F y) as (l & Hl' & Ll). { eapply Forall_impl; [|exact HF]. cbn; intros; congruence. }
        rewrite Hl'. cbn [rbind].
        match goal with |- context [npargmin ?l] => destruct (npargmin l) as [j|e] eqn:Ej end.
        - cbn [rbind]. pose proof (npargmin_lt _ _ Ej) as Hj. rewrite !map_length in Hj.
          destruct (nth_error V j) as [x|] eqn:EV.
          + unfold at_. rewrite EV. cbn [rbind]. eauto.
          + apply nth_error_None in EV. rewrite (Hvars V eq_refl) in EV. lia.
        - destruct l; [destruct F; [contradiction|discriminate]|discriminate]. }
      destruct Hst as [x Hq]. exists (EStop y x). split.
      + cbn [en_iterate]. apply (en_forward_stop_eq km c d s i y (ec_left c)); auto.
      + left. eauto.
    - destruct (Hcond Hn1) as [Hub Hst].
      destruct (box_below y lb ub Hb1 Hub) as [Hbox Hrow].
      destruct (en_reachable_spec (length nd) F lb ub) as (idx & Eidx & Hinc & Hidx); auto.
      assert (Hn'1 : (1 <= n')%Z) by (destruct Hch as [[_ ->] | (_ & _ & H)]; lia).
      set (s' := MkES (es_front s) (es_ideal s) (es_nadir s) (es_vars s) ub lb idx (Some y) (es_npoints s) (Some n')).
      assert (Hiff : forall j row, nth_error F j = Some row -> (In j (idx_list idx) <-> vle row y)).
      { intros j row Hj. rewrite Hidx.
        assert (HrF : In row F) by (eapply nth_error_In; eauto).
        rewrite <- (Hbox row HrF). split.
        - intros (row' & E & Hb'). rewrite Hj in E. injection E as <-. auto.
        - intros Hb'. exists row. auto. }
      destruct (next9 km s' y n' np) as (mi' & c' & zb & E & Elc & Hzne & Hzb & Epts); auto.
      { cbn. intros j Hj. apply Hidx in Hj. destruct Hj as (row & Hj & _). apply nth_error_Some. congruence. }
      exists s', (EReq mi' c'). split.
      + cbn [en_iterate]. rewrite (en_forward_step_eq km c d s i y (ec_left c) n' lb ub idx); auto.
        * rewrite Ef. auto.
        * destruct Hch as [[Hc ->]|(Hc & Hc2 & _)]; [left; split; auto; lia|right; auto].
      + right. split; [auto|]. exists mi', c'. split; [reflexivity|]. split; [auto|]. split; [exact Hiff|].
        rewrite Epts. split; [destruct zb; [contradiction|discriminate]|].
        intros v Hv. apply in_map_iff in Hv. destruct Hv as (z & <- & Hz). rewrite Forall_forall in Hzb.
        destruct (Hzb z Hz) as [HzF Hzy]. exists z. split; auto.
  Qed.

  (** ** Which points lead on *)
  (** A front row lies below the point iff the reported lower bounds do, and already iff
      one of them does. *)
  Lemma lower_tells point lb ub : en_bounds1 F (length nd) point = Ok (lb, ub) ->
    ((exists row, In row F /\ vle row point) <-> vle lb point) /\
    ((exists r lo a, nth_error lb r = Some lo /\ nth_error point r = Some a /\ nleb lo a = true) -> exists row, In row F /\ vle row point).
  Proof.
    intros H. destruct (en_bounds1_ok _ _ _ _ _ H) as (Hp & Hl & Hu & _).
    destruct (en_bounds1_spec L _ _ _ _ _ HF Hnan H) as [Hspec Hbox].
    assert (X : (exists r lo a, nth_error lb r = Some lo /\ nth_error point r = Some a /\ nleb lo a = true) -> exists row, In row F /\ vle row point).
    { intros (r & lo & a & Hlo & Ha & Hle).
      destruct (nth_error ub r) as [hi|] eqn:Hhi; [|apply nth_error_None in Hhi; assert (r < length lb)%nat by (apply nth_error_Some; congruence); lia].
      destruct (Hspec r lo hi Hlo Hhi) as (_ & (row & Hrow & Hok & Hr0) & _).
      exists row. split; [auto|]. apply vle_nth.
      assert (Hlr : length row = length nd) by (unfold is_matrix in HF; rewrite Forall_forall in HF; auto).
      split; [congruence|]. intros j x y Hx Hy. destruct (Nat.eq_dec j r) as [->|Hj].
      - rewrite Hr0 in Hx. injection Hx as <-. rewrite Ha in Hy. injection Hy as <-. exact Hle.
      - eapply Hok; eauto. }
    split; [|exact X]. split.
    - intros (row & Hrow & Hle). destruct (Hbox row Hrow Hle) as [Hlb _]. eapply vle_tr; eauto.
    - intros Hle. apply X. inversion Hle as [E1 E2|lo a lb' pt' Hla _ E1 E2].
      + exfalso. rewrite <- E1 in Hl. cbn in Hl. lia.
      + exists 0%nat, lo, a. auto.
  Qed.

  Lemma bounds1_or k front (point : vec) : length point = k ->
    (exists b, en_bounds1 front k point = Ok b) \/ en_bounds1 front k point = Raise ValueErr.
  Proof.
    intros Hk'. unfold en_bounds1. rewrite Hk', Nat.eqb_refl. cbn [negb].
    assert (X : forall l, (exists cells, rseq (map (fun r => do lo <- npmin (en_cell front point r); do hi <- npmax (en_cell front point r); Ok (lo, hi)) l) = Ok cells) \/
      rseq (map (fun r => do lo <- npmin (en_cell front point r); do hi <- npmax (en_cell front point r); Ok (lo, hi)) l) = Raise ValueErr).
    { induction l as [|r l IH]; [left; exists []; reflexivity|]. cbn [map rseq].
      assert (Y : forall v : vec, (exists lo hi, npmin v = Ok lo /\ npmax v = Ok hi) \/ npmin v = Raise ValueErr).
      { intros [|x v]; [right; reflexivity|left]. unfold npmin, npmax. eauto. }
      destruct (Y (en_cell front point r)) as [(lo & hi & -> & ->)| ->]; cbn [rbind]; [|right; reflexivity].
      destruct IH as [[cells ->]| ->]; cbn; [left; eexists; reflexivity|right; reflexivity]. }
    destruct (X (seq 0 k)) as [[cells ->]| ->]; cbn; [left; eexists; reflexivity|right; reflexivity].
  Qed.

  Lemma bounds_or k front (pts : list vec) : Forall (fun p => length p = k) pts ->
    (exists b, en_bounds front k pts = Ok b) \/ en_bounds front k pts = Raise ValueErr.
  Proof.
    intros H. unfold en_bounds.
    assert (X : (exists bs, rseq (map (en_bounds1 front k) pts) = Ok bs) \/ rseq (map (en_bounds1 front k) pts) = Raise ValueErr).
    { induction H as [|p pts Hp H IH]; [left; exists []; reflexivity|]. cbn [map rseq].
      destruct (bounds1_or k front p Hp) as [[b ->]| ->]; cbn [rbind]; [|right; reflexivity].
      destruct IH as [[bs ->]| ->]; cbn; [left; eexists; reflexivity|right; reflexivity]. }
    destruct X as [[bs ->]| ->]; cbn; [left; eexists; reflexivity|right; reflexivity].
  Qed.

  Lemma next_or km s p n np :
    clusters km -> es_front s = F -> es_nadir s = nd ->
    es_npoints s = Some np -> (1 <= np)%Z -> es_left s = Some n -> (1 <= n)%Z ->
    es_pref s = Some p -> length p = length nd ->
    (forall j, In j (idx_list (es_idx s)) -> (j < length F)%nat) ->
    idx_list (es_idx s) <> [] ->
    (exists mi c zb, en_next km s = (s, Ok (EReq mi c)) /\ ec_left c = n /\ zb <> [] /\
      ((Z.of_nat (length (idx_list (es_idx s))) <= np)%Z -> take F (idx_list (es_idx s)) = Ok zb) /\
      ec_points c = map (towards n p) zb) \/
    en_next km s = (s, Raise ValueErr).
  Proof.
    intros [Hkm Hkt] Ef En Enp Hnp El Hn Ep Hlp Hlt Hnonempty.
    destruct (take_lt F (idx_list (es_idx s))) as [rows Hrows]; [apply Forall_forall; auto|].
    assert (Hrep : exists zbars, en_representatives km F (es_idx s) np = Ok zbars).
    { unfold en_representatives. rewrite Hrows. cbn [rbind].
      destruct (Z.ltb_spec np (Z.of_nat (length (idx_list (es_idx s))))) as [H|H]; [|eauto].
      apply take_ok in Hrows. pose proof (Forall2_len _ _ _ Hrows) as HL.
      destruct (Hkt rows np) as [cl Hcl]; [lia|]. rewrite Hcl. cbn [rbind].
      apply take_lt. apply (Hkm _ _ _ Hcl). }
    destruct Hrep as [zb Hrep].
    pose proof (en_representatives_rows _ _ _ _ _ Hrep) as Hzr.
    destruct (en_representatives_spec _ _ _ _ _ Hkm Hnp Hrep) as [_ Hzlen].
    assert (Hzne : zb <> []).
    { intros E. subst zb. cbn in Hzlen. destruct (idx_list (es_idx s)); [contradiction|]. cbn [length] in Hzlen. lia. }
    assert (Hzl : Forall (fun z => length z = length nd) zb).
    { eapply Forall_impl; [|exact Hzr]. intros z [i [Hi Hz]]. unfold is_matrix in HF. rewrite Forall_forall in HF. apply HF. eapply nth_error_In; eauto. }
    set (zs := map (towards n p) zb).
    assert (Hint : en_intermediate p zb n = Ok zs).
    { apply inter_eq; [lia|]. eapply Forall_impl; [|exact Hzl]. cbn; intros; congruence. }
    assert (Hzsl : Forall (fun z => length z = length nd) zs).
    { unfold zs. rewrite Forall_map. eapply Forall_impl; [|exact Hzl]. cbn; intros. rewrite towards_len; congruence. }
    destruct (bounds_or (length nd) F zs Hzsl) as [[[lbs ubs] Hbd]|Hbd].
    - left.
      destruct (dist_ok nd zs zb) as [ds Hds]; [apply map_length|exact Hzsl|exact Hzl|].
      assert (Hmi : exists mi, en_max_index zs = Ok mi).
      { unfold en_max_index, zs. destruct zb as [|z [|z2 zb']]; cbn [map]; eauto.
        assert (Hz1 : length z = length nd) by (inversion Hzl; auto). rewrite towards_len by congruence. rewrite Hlp. destruct (Nat.eqb_spec (length nd) 1); [lia|eauto]. }
      destruct Hmi as [mi Hmi].
      exists mi, (MkEC (es_ideal s) nd zs lbs ubs n ds), zb. split.
      + pose proof (en_next_eq km s np p n zb zs lbs ubs ds mi) as G. rewrite Ef, En in G. apply G; auto.
      + split; [reflexivity|]. split; [auto|]. split; [|reflexivity]. intros Hall.
        unfold en_representatives in Hrep. rewrite Hrows in Hrep. cbn [rbind] in Hrep.
        destruct (Z.ltb_spec np (Z.of_nat (length (idx_list (es_idx s))))); [lia|]. congruence.
    - right. unfold en_next, sbind, lift, sget. rewrite Enp, Ep, El. cbn [some_or_type]. rewrite Ef, En, Hrep, Hint, Hbd. reflexivity.
  Qed.

  Lemma outcome9 s mi c : forward_session F ideal nd vars s (EReq mi c) ->
    forall km d y n' lb ub, clusters km -> moves_to c d y n' -> chosen_bounds c d lb ub -> (1 < ec_left c)%Z ->
    (exists row, In row F /\ vle row y) ->
    snd (en_iterate km (EReq mi c) (Some d) s) = Raise ValueErr \/
    exists s' mi' c', en_iterate km (EReq mi c) (Some d) s = (s', Ok (EReq mi' c')) /\ ec_left c' = n' /\
      (forall j row, nth_error F j = Some row -> (In j (idx_list (es_idx s')) <-> in_box row lb ub)) /\
      (forall row, In row F -> vle row y -> in_box row lb ub) /\
      ec_points c' <> [] /\
      (forall np, es_npoints s = Some np -> (Z.of_nat (length F) <= np)%Z -> stays_between F n' y ->
        exists v z, In v (ec_points c') /\ In z F /\ vle z v).
  Proof.
    intros Hf km d y n' lb ub Hkm (Hsb & [i [Hi [Hi0 Ey]]] & Hch) (i' & Hi' & Elb & Eub) Hn1 (row0 & Hrow0 & Hle0).
    rewrite Hi in Hi'. injection Hi' as <-.
    destruct (forward_inv _ _ Hf) as [(o & x & Hq)|(mi' & c' & Hq & HI)]; [discriminate|]. injection Hq as <- <-.
    destruct HI as (Ef & En & Ev & [np [Enp Hnp]] & El & Hl & Hbd).
    assert (Epy : py_nth (ec_points c) i = Ok y) by (rewrite py_nth_nonneg by lia; apply at_ok; auto).
    assert (Eplb : py_nth (ec_lb c) i = Ok lb) by (rewrite py_nth_nonneg by lia; apply at_ok; auto).
    assert (Epub : py_nth (ec_ub c) i = Ok ub) by (rewrite py_nth_nonneg by lia; apply at_ok; auto).
    destruct (en_bounds_ok _ _ _ _ _ Hbd) as (_ & _ & Hb).
    pose proof (Hb _ _ _ _ Ey Elb Eub) as Hb1.
    destruct (en_bounds1_ok _ _ _ _ _ Hb1) as (Hly & Hllb & Hlub & _).
    destruct (en_bounds1_spec L _ _ _ _ _ HF Hnan Hb1) as [_ Hbox].
    destruct (en_reachable_spec (length nd) F lb ub) as (idx & Eidx & Hinc & Hidx); auto.
    assert (Hn'1 : (1 <= n')%Z) by (destruct Hch as [[_ ->] | (_ & _ & H)]; lia).
    set (s' := MkES (es_front s) (es_ideal s) (es_nadir s) (es_vars s) ub lb idx (Some y) (es_npoints s) (Some n')).
    assert (Hiff : forall j row, nth_error F j = Some row -> (In j (idx_list idx) <-> in_box row lb ub)).
    { intros j row Hj. rewrite Hidx. split.
      - intros (row' & E & Hb'). rewrite Hj in E. injection E as <-. auto.
      - intros Hb'. exists row. auto. }
    apply In_nth_error in Hrow0. destruct Hrow0 as [j0 Hj0].
    assert (Hj0in : In j0 (idx_list idx)) by (apply (Hiff j0 row0 Hj0); apply Hbox; [eapply nth_error_In; eauto|auto]).
    assert (Est : en_iterate km (EReq mi c) (Some d) s = en_next km s').
    { cbn [en_iterate]. rewrite (en_forward_step_eq km c d s i y (ec_left c) n' lb ub idx); auto.
      - rewrite Ef. auto.
      - destruct Hch as [[Hc ->]|(Hc & Hc2 & _)]; [left; split; auto; lia|right; auto]. }
    destruct (next_or km s' y n' np) as [(mi' & c' & zb & E & Elc & Hzne & Hall & Epts)|E]; auto.
    { cbn. intros j Hj. apply Hidx in Hj. destruct Hj as (row & Hj & _). apply nth_error_Some. congruence. }
    { cbn. intros H. rewrite H in Hj0in. contradiction. }
    - right. exists s', mi', c'. rewrite Est. split; [exact E|]. split; [auto|]. split; [exact Hiff|]. split; [exact Hbox|].
      rewrite Epts. split; [destruct zb; [contradiction|discriminate]|].
      intros np' Enp' Hge Hst. rewrite Enp in Enp'. injection Enp' as <-.
      assert (Hlen : (length (idx_list idx) <= length F)%nat).
      { rewrite <- (seq_length (length F) 0). apply NoDup_incl_length.
        - eapply increasing_NoDup9; eauto.
        - intros j Hj. apply Hidx in Hj. destruct Hj as (row & Hj & _). apply in_seq. assert (j < length F)%nat by (apply nth_error_Some; congruence). lia. }
      assert (Htake : take F (idx_list idx) = Ok zb) by (apply Hall; cbn [es_idx s']; lia).
      apply take_ok in Htake.
      assert (Hz : In row0 zb).
      { apply In_nth_error in Hj0in. destruct Hj0in as [k Hk']. destruct (Forall2_nth_l _ _ _ _ _ Htake Hk') as (z & Hz & Ez).
        cbn in Ez. apply nth_error_In in Hz. rewrite Hj0 in Ez. injection Ez as ->. exact Hz. }
      exists (towards n' y row0), row0. split; [apply in_map; auto|]. split; [eapply nth_error_In; eauto|].
      apply Hst; [eapply nth_error_In; eauto|auto].
    - left. rewrite Est, E. reflexivity.
  Qed.

End Any.

(** ** Exact arithmetic *)
Local Open Scope R_scope.
Lemma towards_real n (p z : list R) : (1 <= n)%Z -> length p = length z -> @towards XR n (xv p) (xv z) = xv (step_towards n p z).
Proof.
  intros Hn HL.
  assert (A : @en_intermediate XR (xv p) [xv z] n = Ok [@towards XR n (xv p) (xv z)]).
  { apply (inter_eq (N:=XR)); [lia|]. constructor; [|constructor]. unfold xv. rewrite !map_length. exact HL. }
  pose proof (en_intermediate_xr_ok p [z] n) as B. cbn [xm map] in B.
  rewrite A in B. assert (C : Ok [@towards XR n (xv p) (xv z)] = Ok [xv (step_towards n p z)]).
  { apply B; [|lia]. constructor; [congruence|constructor]. }
  injection C. auto.
Qed.

Lemma real_between n (F : list (list R)) (y : list R) : (1 <= n)%Z -> stays_between (xm F) n (xv y : list XR).
Proof.
  intros Hn z Hz Hle. apply in_map_iff in Hz. destruct Hz as (zr & <- & Hz).
  apply xvle_iff in Hle. rewrite towards_real; [|auto|symmetry; apply rvle_len; auto].
  destruct (rcomb_step_between n y zr Hn Hle) as [A B]. split; apply xvle_iff; auto.
Qed.

Section Real.
  Variables (F : list (list R)) (nd : list R) (ideal : list XR) (vars : option (list (list XR))).
  Hypothesis HF : Forall (fun r => length r = length nd) F.

  Lemma xm_mat : is_matrix (length (xv nd)) (xm F).
  Proof. unfold is_matrix, xm. rewrite Forall_map. eapply Forall_impl; [|exact HF]. intros r Hr. cbn. unfold xv. rewrite !map_length. exact Hr. Qed.

  Lemma forward_real s q : forward_session (xm F) ideal (xv nd) vars s q ->
    forall mi c, q = EReq mi c -> forall v, In v (ec_points c) -> exists y, v = xv y /\ length y = length nd.
  Proof.
    intros Hf. induction Hf as [km d s q Hv E|km mi0 c0 d y n' s s' q Hf IH Ha E]; intros mi c -> v Hin.
    - cbn [en_iterate en_start] in E. destruct (en_initial_ok _ _ _ _ _ E) as (ni & np & Eni & Enp & -> & Hx).
      destruct Hx as (np' & p' & n3 & zb & zs & lbs & ubs & ds & mi2 & Enp' & Ep' & En3 & Er & Ei & Eb & Ed & Em & Hq).
      cbn [es_npoints es_pref es_left es_front es_idx es_nadir en_init] in Enp', Ep', En3, Er, Ei. injection Hq as _ ->. cbn [ec_points] in Hin. injection Ep' as <-.
      pose proof (en_representatives_rows _ _ _ _ _ Er) as Hzr. apply xm_rows_ex in Hzr. destruct Hzr as (zr & -> & Hzr).
      apply (en_intermediate_xr nd) in Ei.
      + destruct Ei as [_ ->]. apply in_map_iff in Hin. destruct Hin as (w & <- & Hw). apply in_map_iff in Hw. destruct Hw as (z & <- & Hz).
        exists (step_towards n3 nd z). split; [reflexivity|]. rewrite Forall_forall in Hzr, HF. destruct (Hzr z Hz) as (i & _ & Hi).
        apply step_towards_length. symmetry. apply HF. eapply nth_error_In; eauto.
      + eapply Forall_impl; [|exact Hzr]. intros z (i & _ & Hi). rewrite Forall_forall in HF. apply HF. eapply nth_error_In; eauto.
    - destruct Ha as (Hsb & (i & Hi & Hi0 & Ey) & Hch).
      destruct (IH mi0 c0 eq_refl y) as (yr & -> & Hly); [eapply nth_error_In; eauto|].
      destruct (forward_inv (xm F) ideal (xv nd) vars s (EReq mi0 c0) Hf) as [(o & x & Hq)|(mi1 & c1 & Hq & HI)]; [discriminate|]. injection Hq as <- <-.
      destruct HI as (_ & _ & _ & _ & _ & Hl & Hbd).
      destruct (en_bounds_ok _ _ _ _ _ Hbd) as (Fl & Fu & _).
      destruct (Forall2_nth_l _ _ _ _ _ Fl Ey) as [lb [Elb _]]. destruct (Forall2_nth_l _ _ _ _ _ Fu Ey) as [ub [Eub _]].
      assert (Hn' : (1 <= n')%Z).
      { cbn [en_iterate] in E. destruct (en_forward_ok _ _ _ _ _ _ E Hsb) as (i' & p & n & Ei' & Ep & En' & [(Hn & Es & Hst)|(Hn & _)]).
        - destruct (en_stop_is_stop _ _ _ Hst) as (o & x & Hq). discriminate.
        - destruct (forward_inv (xm F) ideal (xv nd) vars s (EReq mi0 c0) Hf) as [(o & x & Hq)|(mi1 & c1 & Hq & HI)]; [discriminate|]. injection Hq as <- <-.
          destruct HI as (_ & _ & _ & _ & El & _). rewrite El in En'. injection En' as <-. destruct Hch as [[_ ->]|(_ & _ & H)]; lia. }
      destruct (where9 (xm F) ideal (xv nd) vars xm_mat s mi0 c0 Hf km d (xv yr) n' lb ub s' mi c) as (_ & _ & Hw); auto.
      { split; [auto|]. split; [eauto|auto]. }
      { exists i. auto. }
      destruct (Hw v Hin) as (z & Hz & _ & ->). apply in_map_iff in Hz. destruct Hz as (zr & <- & Hz).
      rewrite Forall_forall in HF. specialize (HF zr Hz). exists (step_towards n' yr zr). rewrite towards_real; [|auto|congruence].
      split; [reflexivity|]. rewrite step_towards_length; congruence.
  Qed.

  Lemma between_nth n (p z : list R) j a b x : (1 <= n)%Z -> length p = length z ->
    nth_error p j = Some a -> nth_error z j = Some b -> nth_error (step_towards n p z) j = Some x -> Rmin a b <= x <= Rmax a b.
  Proof.
    intros Hn HL Ha Hb Hx. unfold step_towards in Hx.
    assert (E : x = IZR (n - 1) / IZR n * a + 1 / IZR n * b).
    { revert z j HL Ha Hb Hx. induction p as [|p0 p IH]; intros [|z0 z] [|j] HL Ha Hb Hx; cbn [rcomb nth_error length] in HL, Ha, Hb, Hx; try discriminate; [congruence|]. apply (IH z j); auto. }
    subst x. assert (Hn' : 1 <= IZR n) by (apply IZR_le; auto).
    replace (IZR (n-1) / IZR n) with (1 - 1 / IZR n) by (rewrite minus_IZR; field; lra).
    assert (Hc : 0 <= 1 / IZR n <= 1).
    { split; [apply Rmult_le_pos; [lra|]; left; apply Rinv_0_lt_compat; lra|].
      apply Rmult_le_reg_r with (IZR n); [lra|]. field_simplify; lra. }
    unfold Rmin, Rmax. destruct (Rle_dec a b); split; nra.
  Qed.
End Real.
