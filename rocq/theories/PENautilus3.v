(** * E-NAUTILUS: sessions and progress. *)
From Coq Require Import ZArith List Bool Lia Reals Lra.
From Verif Require Import Num NumXR Py Np Spec NpFacts XRFacts MENautilus PENautilus PENautilus2.
Import ListNotations.

Lemma last_default {A} (l : list A) a b : l <> [] -> last l a = last l b.
Proof.
  induction l as [|x [|y l] IH]; intros H; [contradiction|reflexivity|].
  change (last (y :: l) a = last (y :: l) b). apply IH. discriminate.
Qed.

Section Sess.
  Context {N : NumOps}.
  Implicit Types (km : @km_oracle N) (s : en_state N) (d : en_dict N) (c : en_content N) (q : en_request N).

  (** A decision maker answering the latest request each time, every answer
      being handled without an exception. *)
  Inductive en_answers : en_state N -> en_request N -> list (en_dict N) -> en_state N -> list (en_request N) -> Prop :=
  | ans_nil s q : en_answers s q [] s []
  | ans_cons s q km d s1 q1 ds s' qs :
      en_iterate km q (Some d) s = (s1, Ok q1) ->
      en_answers s1 q1 ds s' qs ->
      en_answers s q (d :: ds) s' (q1 :: qs).

  (** Iterations left as shown by a request; a stop request means none. *)
  Definition remaining q : option Z :=
    match q with EInit _ _ => None | EReq _ c => Some (ec_left c) | EStop _ _ => Some 0%Z end.
  Definition is_stop q : Prop := exists o x, q = EStop o x.

  Lemma next_left km s q : next_spec km s q -> exists mi c, q = EReq mi c /\ es_left s = Some (ec_left c).
  Proof.
    intros (np & p & n & zbars & zs & lbs & ubs & ds & mi & Enp & Ep & En & Er & Ei & Eb & Ed & Em & ->).
    eauto.
  Qed.

  Lemma en_stop_is_stop s p q : en_stop s p = Ok q -> is_stop q.
  Proof.
    unfold en_stop. destruct (es_vars s).
    - intros H. apply rbind_ok in H. destruct H as [x [_ H]]. apply rbind_ok in H. destruct H as [i [_ H]].
      apply rbind_ok in H. destruct H as [y [_ H]]. injection H as <-. red; eauto.
    - intros H. injection H as <-. red; eauto.
  Qed.

  Lemma session_countdown m : forall s mi c ds s' qs,
    es_left s = Some (Z.of_nat (S m)) -> ec_left c = Z.of_nat (S m) ->
    length ds = S m ->
    Forall (fun d => d_step_back d = Some false /\ d_change d = Some false) ds ->
    en_answers s (EReq mi c) ds s' qs ->
    map remaining qs = map (fun i => Some (Z.of_nat i)) (rev (seq 0 (S m))) /\
    is_stop (last qs (EReq mi c)) /\ es_left s' = Some 0%Z.
  Proof.
    induction m as [|m IH]; intros s mi c ds s' qs Hs Hc Hlen Hall H.
    - destruct ds as [|d [|? ?]]; try discriminate. inversion H as [|? ? km ? s1 q1 ? ? qs' E H']; subst.
      inversion H'; subst. inversion Hall as [|? ? [Hsb Hch] _]; subst.
      simpl in E. destruct (en_forward_ok _ _ _ _ _ _ E Hsb) as (i & p & n & _ & _ & En & [(Hn & Es & Hst)|(Hn & _)]).
      + pose proof (en_stop_is_stop _ _ _ Hst) as Hq. subst s'. repeat split; auto.
        destruct Hq as (o & x & ->). reflexivity.
      + assert (n = Z.of_nat 1) by congruence. lia.
    - destruct ds as [|d ds]; [discriminate|]. inversion H as [|? ? km ? s1 q1 ? ? qs' E H']; subst.
      inversion Hall as [|? ? [Hsb Hch] Hall']; subst.
      simpl in E. destruct (en_forward_ok _ _ _ _ _ _ E Hsb) as (i & p & n & _ & _ & En & [(Hn & _)|(Hn & lb & ub & ri & ch & n' & _ & _ & _ & Ec & En' & Es & Hnext)]).
      + assert (n = Z.of_nat (S (S m))) by congruence. lia.
      + assert (n = Z.of_nat (S (S m))) by congruence. subst n. rewrite Hch in Ec. injection Ec as <-. subst n'.
        destruct (next_left _ _ _ Hnext) as (mi' & c' & -> & Hl).
        assert (Hl' : es_left s1 = Some (Z.of_nat (S m))) by (subst s1; cbn [es_left]; f_equal; lia).
        destruct (IH s1 mi' c' ds s' qs') as (A & B & C); auto.
        { congruence. }
        repeat split; auto.
        * cbn [map]. rewrite A. replace (seq 0 (S (S m))) with (seq 0 (S m) ++ [S m]) by (symmetry; apply (seq_S (S m) 0)).
          rewrite rev_app_distr. cbn [rev app map]. f_equal.
          unfold remaining. congruence.
        * destruct qs' as [|q2 qs']; [inversion H'; subst; simpl in *; discriminate|].
          change (is_stop (last (q2 :: qs') (EReq mi c))). rewrite (last_default (q2 :: qs') _ (EReq mi' c')) by discriminate. exact B.
  Qed.

  Lemma session_length km d0 s s1 q1 ds s' qs n ideal nadir :
    en_iterate km (EInit ideal nadir) (Some d0) s = (s1, Ok q1) ->
    option_map as_int (d_n_iterations d0) = Some (Some n) -> (1 <= n)%Z ->
    Z.of_nat (length ds) = n ->
    Forall (fun d => d_step_back d = Some false /\ d_change d = Some false) ds ->
    en_answers s1 q1 ds s' qs ->
    map remaining (q1 :: qs) = map (fun i => Some (Z.of_nat i)) (rev (seq 0 (S (length ds)))) /\
    is_stop (last qs q1) /\ es_left s' = Some 0%Z.
  Proof.
    intros E Hn0 Hn Hlen Hall H. simpl in E.
    destruct (en_initial_ok _ _ _ _ _ E) as (ni & np & Eni & Enp & Es & Hnext).
    rewrite Eni in Hn0. simpl in Hn0. injection Hn0 as Hn0.
    destruct (next_left _ _ _ Hnext) as (mi & c & -> & Hl).
    assert (Hs1 : es_left s1 = Some n) by (subst s1; simpl; auto).
    rewrite Hs1 in Hl. injection Hl as Hl.
    destruct ds as [|d ds]; [simpl in Hlen; lia|].
    destruct (session_countdown (length ds) s1 mi c (d :: ds) s' qs) as (A & B & C); auto.
    - rewrite Hs1. f_equal. simpl in Hlen. lia.
    - simpl in Hlen. lia.
    - repeat split; auto. cbn [map]. rewrite A.
      cbn [length]. replace (seq 0 (S (S (length ds)))) with (seq 0 (S (length ds)) ++ [S (length ds)]) by (symmetry; apply (seq_S (S (length ds)) 0)).
      rewrite rev_app_distr. cbn [rev app map]. f_equal.
      simpl. f_equal. simpl in Hlen. lia.
  Qed.
End Sess.

(** ** Progress with two objectives (C13) *)
Section Two.
  Local Open Scope R_scope.
  Variables (F : list (list R)) (nd : list R) (ideal : list XR) (vars : option (list (list XR))).
  Hypothesis HF : Forall (fun r => length r = 2%nat) F.
  Hypothesis Hnd : length nd = 2%nat.
  Hypothesis Hne : F <> [].
  Hypothesis Hbelow : Forall (fun r => rvle r nd) F.
  Hypothesis Hmnd : mutually_nondominated (xm F).
  Hypothesis Hvars : forall V, vars = Some V -> length V = length F.

  (** The clustering answers whenever it is asked for fewer clusters than rows,
      with that many valid row positions. *)
  Definition km_total (km : @km_oracle XR) : Prop :=
    km_ok km /\ forall rows n, (1 <= n < Z.of_nat (length rows))%Z -> exists cl, km rows n = Ok cl.

  (** A forward answer with an index that designates a shown point and, when the
      number of remaining iterations is changed, a positive one. *)
  Definition fwd_answer (c : en_content XR) (d : en_dict XR) : Prop :=
    d_step_back d = Some false /\
    (exists i, d_index d = Some i /\ (0 <= i < Z.of_nat (length (ec_points c)))%Z) /\
    (d_change d = Some false \/ (d_change d = Some true /\ exists n, d_iterations_left d = Some n /\ (1 <= n)%Z)).

  (** Sessions that only move forward. *)
  Inductive fwd : en_state XR -> en_request XR -> Prop :=
  | fwd_init km d s q :
      km_total km -> en_validate_init d = Ok tt ->
      en_iterate km (en_start (en_init (xm F) ideal (xv nd) vars)) (Some d) (en_init (xm F) ideal (xv nd) vars) = (s, Ok q) ->
      fwd s q
  | fwd_step km mi c d s s' q :
      fwd s (EReq mi c) -> km_total km -> fwd_answer c d ->
      en_iterate km (EReq mi c) (Some d) s = (s', Ok q) ->
      fwd s' q.

  Definition Inv (s : en_state XR) (c : en_content XR) : Prop :=
    es_front s = xm F /\ es_nadir s = xv nd /\ es_vars s = vars /\
    (exists np, es_npoints s = Some np /\ (1 <= np)%Z) /\
    exists p n zb, es_left s = Some n /\ (1 <= n)%Z /\ ec_left c = n /\
      es_pref s = Some (xv p) /\ rvle p nd /\
      zb <> [] /\ Forall (fun z => In z F /\ rvle z p) zb /\
      ec_points c = xm (map (step_towards n p) zb) /\
      en_bounds (xm F) 2 (ec_points c) = Ok (ec_lb c, ec_ub c) /\
      (forall j row, nth_error F j = Some row -> (In j (idx_list (es_idx s)) <-> rvle row p)).

  (** From a reachable set that is exactly the rows below [p], the tail of both
      handlers succeeds and re-establishes the invariant. *)
  Lemma next_two km s p n np :
    km_total km -> es_front s = xm F -> es_nadir s = xv nd -> es_vars s = vars ->
    es_npoints s = Some np -> (1 <= np)%Z -> es_left s = Some n -> (1 <= n)%Z ->
    es_pref s = Some (xv p) -> rvle p nd ->
    (forall j, In j (idx_list (es_idx s)) -> (j < length F)%nat) ->
    (forall j row, nth_error F j = Some row -> (In j (idx_list (es_idx s)) <-> rvle row p)) ->
    (exists row, In row F /\ rvle row p) ->
    exists mi c, en_next km s = (s, Ok (EReq mi c)) /\ Inv s c.
  Proof.
    intros [Hk Hkt] Ef En Ev Enp Hnp El Hn Ep Hpnd Hlt Hids [row0 [Hrow0 Hrow0p]].
    assert (Hlp : length p = 2%nat) by (rewrite (rvle_len _ _ Hpnd); auto).
    (* rows *)
    destruct (take_lt (xm F) (idx_list (es_idx s))) as [rows Hrows].
    { apply Forall_forall. intros j Hj. rewrite xm_length. auto. }
    assert (Hnonempty : idx_list (es_idx s) <> []).
    { apply In_nth_error in Hrow0. destruct Hrow0 as [j Hj].
      assert (In j (idx_list (es_idx s))) by (apply (Hids j row0 Hj); auto).
      intros E. rewrite E in H. contradiction. }
    assert (Hrep : exists zbars, en_representatives km (xm F) (es_idx s) np = Ok zbars).
    { unfold en_representatives. rewrite Hrows. simpl.
      destruct (Z.ltb_spec np (Z.of_nat (length (idx_list (es_idx s))))) as [H|H]; [|eauto].
      apply take_ok in Hrows. pose proof (Forall2_len _ _ _ Hrows) as HL.
      destruct (Hkt rows np) as [cl Hcl]; [lia|]. rewrite Hcl. simpl.
      apply take_lt. apply (Hk _ _ _ Hcl). }
    destruct Hrep as [zbars Hrep].
    pose proof (en_representatives_rows _ _ _ _ _ Hrep) as Hzr.
    destruct (xm_rows_ex F zbars _ Hzr) as [zb [-> Hzb]].
    destruct (en_representatives_spec _ _ _ _ _ Hk Hnp Hrep) as [_ Hzlen].
    assert (Hzne : zb <> []).
    { intros E. subst zb. simpl in Hzlen. destruct (idx_list (es_idx s)); [contradiction|]. simpl in Hzlen. lia. }
    assert (Hzb2 : Forall (fun z => In z F /\ rvle z p) zb).
    { eapply Forall_impl; [|exact Hzb]. intros z [i [Hi Hz]]. split; [eapply nth_error_In; eauto|].
      apply (Hids i z Hz). auto. }
    assert (Hzl : Forall (fun z => length z = 2%nat) zb).
    { eapply Forall_impl; [|exact Hzb2]. intros z [Hz _]. rewrite Forall_forall in HF. auto. }
    set (zs := map (step_towards n p) zb).
    assert (Hmid : Forall (fun z => rvle z (step_towards n p z) /\ rvle (step_towards n p z) p) zb).
    { eapply Forall_impl; [|exact Hzb2]. intros z [_ Hz]. apply rcomb_step_between; auto. }
    assert (Hint : en_intermediate (xv p : list XR) (xm zb) n = Ok (xm zs)).
    { apply en_intermediate_xr_ok; [|lia]. eapply Forall_impl; [|exact Hzl]. simpl; intros; congruence. }
    assert (Hbd : exists lbs ubs, en_bounds (xm F) 2 (xm zs) = Ok (lbs, ubs)).
    { unfold en_bounds.
      assert (exists bs, rseq (map (en_bounds1 (xm F) 2) (xm zs)) = Ok bs) as [bs Hbs].
      { unfold zs. clear Hint Hzb Hzne Hzlen Hrep Hzr. induction zb as [|z zb' IH]; [exists []; reflexivity|].
        change (xm (map (step_towards n p) (z :: zb'))) with (xv (step_towards n p z) :: xm (map (step_towards n p) zb')).
        cbn [map rseq].
        inversion Hzb2 as [|? ? [HzF Hzp] Hzb2']; subst. inversion Hzl; subst. inversion Hmid as [|? ? [Hm1 Hm2] Hmid']; subst.
        destruct IH as [bs Hbs]; auto.
        destruct (en_bounds1_defined (N:=XR) 2 (xm F) (xv (step_towards n p z))) as (lb & ub & Hb).
        - apply xm_is_matrix. auto.
        - rewrite xv_length, step_towards_length; congruence.
        - intros r Hr. exists (xv z). split; [apply in_map; auto|].
          intros j x y _ Hx Hy. apply xvle_iff in Hm1. apply vle_nth in Hm1. destruct Hm1 as [_ Hm1]. eauto.
        - rewrite Hb. rewrite Hbs. simpl. eauto. }
      rewrite Hbs. simpl. eauto. }
    destruct Hbd as (lbs & ubs & Hbd).
    assert (Hds : exists ds, en_distances (N:=XR) (xm zs) (xm zb) (xv nd) = Ok ds).
    { rewrite en_distances_xr; eauto.
      - apply map_length.
      - unfold zs. rewrite Forall_map. eapply Forall_impl; [|exact Hzl]. simpl; intros. rewrite step_towards_length; congruence.
      - eapply Forall_impl; [|exact Hzl]. simpl; intros; congruence. }
    destruct Hds as [ds Hds].
    assert (Hmi : exists mi, en_max_index (N:=XR) (xm zs) = Ok mi).
    { unfold en_max_index, zs. destruct zb as [|z [|z2 zb']]; simpl; eauto.
      inversion Hzl; subst. rewrite xv_length, step_towards_length by congruence. rewrite Hlp. simpl. eauto. }
    destruct Hmi as [mi Hmi].
    exists mi, (MkEC (es_ideal s) (xv nd) (xm zs) lbs ubs n ds). split.
    - rewrite <- En. apply (en_next_eq km s np (xv p) n (xm zb) (xm zs) lbs ubs ds mi); auto.
      + rewrite Ef; auto.
      + rewrite Ef, En, xv_length, Hnd. auto.
      + rewrite En. auto.
    - split; [auto|]. split; [auto|]. split; [auto|]. split; [eauto|].
      exists p, n, zb. simpl. repeat (split; auto).
  Qed.

  Lemma inv_init km d :
    km_total km -> en_validate_init d = Ok tt ->
    exists s mi c, en_iterate km (en_start (en_init (xm F) ideal (xv nd) vars)) (Some d) (en_init (xm F) ideal (xv nd) vars)
       = (s, Ok (EReq mi c)) /\ Inv s c.
  Proof.
    intros Hkm Hv. unfold en_validate_init in Hv.
    destruct (d_n_iterations d) as [ni|] eqn:Eni; [|discriminate].
    destruct (d_n_points d) as [np|] eqn:Enp; [|discriminate].
    destruct (as_int ni) as [zi|] eqn:Ezi; [|discriminate].
    destruct (Z.ltb_spec zi 1); [discriminate|].
    destruct (as_int np) as [zp|] eqn:Ezp; [|discriminate].
    destruct (Z.ltb_spec zp 1); [discriminate|].
    set (s1 := MkES (xm F) ideal (xv nd) vars (xv nd) ideal (IList (seq 0 (length (xm F)))) (Some (xv nd)) (Some zp) (Some zi)).
    destruct (next_two km s1 nd zi zp) as (mi & c & E & HI); auto; try reflexivity.
    - apply rvle_refl.
    - simpl. intros j Hj. apply in_seq in Hj. rewrite xm_length in Hj. lia.
    - simpl. intros j row Hj. split; intros _.
      + rewrite Forall_forall in Hbelow. apply Hbelow. eapply nth_error_In; eauto.
      + apply in_seq. rewrite xm_length. split; [lia|]. simpl. apply nth_error_Some. congruence.
    - destruct F as [|row F']; [contradiction|]. exists row. inversion Hbelow; subst. split; [left; auto|auto].
    - exists s1, mi, c. split; auto.
      simpl. unfold en_handle_initial, sbind, lift, smod. rewrite Eni, Enp. simpl. rewrite Ezi, Ezp. exact E.
  Qed.

  Lemma inv_step km mi c d s :
    Inv s c -> km_total km -> fwd_answer c d ->
    exists s', (exists o x, en_iterate km (EReq mi c) (Some d) s = (s', Ok (EStop o x))) \/
               (exists mi' c', en_iterate km (EReq mi c) (Some d) s = (s', Ok (EReq mi' c')) /\ Inv s' c' /\
                  exists i y, d_index d = Some i /\ nth_error (ec_points c) (Z.to_nat i) = Some (xv y) /\
                     es_pref s' = Some (xv y)).
  Proof.
    intros (Ef & En & Ev & [np [Enp Hnp]] & p & n & zb & El & Hn & Ecl & Ep & Hpnd & Hzne & Hzb & Epts & Ebd & Hids)
           Hkm (Hsb & [i [Hi Hir]] & Hch).
    assert (Hlp : length p = 2%nat) by (rewrite (rvle_len _ _ Hpnd); auto).
    rewrite Epts, xm_length, map_length in Hir.
    destruct (nth_error zb (Z.to_nat i)) as [z|] eqn:Ez; [|apply nth_error_None in Ez; lia].
    assert (HzF : In z F /\ rvle z p) by (rewrite Forall_forall in Hzb; apply Hzb; eapply nth_error_In; eauto).
    destruct HzF as [HzF Hzp].
    set (y := step_towards n p z).
    destruct (rcomb_step_between n p z Hn Hzp) as [Hzy Hyp]. fold (step_towards n p z) in Hzy, Hyp. fold y in Hzy, Hyp.
    assert (Ey : nth_error (ec_points c) (Z.to_nat i) = Some (xv y)).
    { rewrite Epts, xm_nth, nth_error_map, Ez. reflexivity. }
    assert (Epy : py_nth (ec_points c) i = Ok (xv y)).
    { rewrite py_nth_nonneg by lia. apply at_ok. auto. }
    destruct (en_bounds_ok _ _ _ _ _ Ebd) as (Fl & Fu & Hb).
    destruct (Forall2_nth_l _ _ _ _ _ Fl Ey) as [lb [Elb _]].
    destruct (Forall2_nth_l _ _ _ _ _ Fu Ey) as [ub [Eub _]].
    pose proof (Hb _ _ _ _ Ey Elb Eub) as Hb1.
    destruct (en_bounds1_ok _ _ _ _ _ Hb1) as (Hly & Hllb & Hlub & _).
    assert (Eplb : py_nth (ec_lb c) i = Ok lb) by (rewrite py_nth_nonneg by lia; apply at_ok; auto).
    assert (Epub : py_nth (ec_ub c) i = Ok ub) by (rewrite py_nth_nonneg by lia; apply at_ok; auto).
    destruct (Z.leb_spec n 1) as [Hn1|Hn1].
    - (* stop *)
      exists (set_left (Some 0%Z) (set_pref (Some (xv y)) s)). left.
      assert (En1 : n = 1%Z) by lia.
      assert (Eyz : y = z) by (unfold y; rewrite En1; apply step_towards_1; rewrite (rvle_len _ _ Hzp); auto).
      assert (Hst : exists q, en_stop (set_left (Some 0%Z) (set_pref (Some (xv y)) s)) (xv y) = Ok q).
      { unfold en_stop. cbn [es_vars es_front set_left set_pref]. rewrite Ev, Ef. destruct vars as [V|]; [|eauto].
        rewrite (rsub_rows F y).
        2:{ eapply Forall_impl; [|exact HF]. simpl; intros a Ha. rewrite Ha. symmetry. rewrite Eyz.
            rewrite Forall_forall in HF. auto. }
        cbn [rbind].
        match goal with |- context [npargmin ?l] => destruct (npargmin l) as [j|e] eqn:Ej end.
        - cbn [rbind]. pose proof (npargmin_lt _ _ Ej) as Hj. rewrite !map_length in Hj.
          destruct (nth_error V j) as [x|] eqn:EV.
          + unfold at_. rewrite EV. cbn [rbind]. eauto.
          + apply nth_error_None in EV. rewrite (Hvars V eq_refl) in EV. lia.
        - destruct F; [contradiction|discriminate]. }
      destruct Hst as [q Hq]. destruct (en_stop_is_stop _ _ _ Hq) as (o & x & ->).
      exists o, x. cbn [en_iterate]. apply (en_forward_stop_eq km c d s i (xv y) n); auto.
    - destruct (en_reachable_spec 2 (xm F) lb ub) as (idx & Eidx & Hinc & Hidx); auto.
      { apply xm_is_matrix; auto. }
      assert (Hn' : exists n', (1 <= n')%Z /\
          (if match d_change d with Some b => b | None => false end then d_iterations_left d = Some n' else n' = (n - 1)%Z)).
      { destruct Hch as [-> | [-> [n' [E1 E2]]]]; [exists (n-1)%Z; split; [lia|auto] | exists n'; auto]. }
      destruct Hn' as [n' [Hn'1 Hn'2]].
      set (s' := MkES (es_front s) (es_ideal s) (es_nadir s) (es_vars s) ub lb idx (Some (xv y)) (es_npoints s) (Some n')).
      assert (Hbelow_iff : forall j row, nth_error F j = Some row -> (In j (idx_list idx) <-> rvle row y)).
      { intros j row Hj. rewrite Hidx.
        assert (HrF : In (xv row) (xm F)) by (apply in_map; eapply nth_error_In; eauto).
        rewrite <- xvle_iff.
        rewrite <- (en_box_two XR_ord (xm F) (xv y) lb ub); auto.
        - split.
          + intros (row' & E & Hbox). rewrite xm_nth, Hj in E. injection E as <-. auto.
          + intros Hbox. exists (xv row). rewrite xm_nth, Hj. auto.
        - apply xm_is_matrix; auto.
        - apply xm_nan_free.
        - apply xv_nan_free. }
      destruct (next_two km s' y n' np) as (mi' & c' & E & HI); auto.
      + eapply rvle_trans; eauto.
      + simpl. intros j Hj. apply Hidx in Hj. destruct Hj as (row & Hj & _).
        rewrite <- (xm_length F). apply nth_error_Some. congruence.
      + exists z. auto.
      + exists s'. right. exists mi', c'. split; [|split; [auto|exists i, y; auto]].
        cbn [en_iterate].
        rewrite (en_forward_step_eq km c d s i (xv y) n n' lb ub idx); auto.
        * rewrite Ef. auto.
        * destruct Hch as [Hc | [Hc [n2 [E1 E2]]]]; rewrite Hc in Hn'2; auto.
  Qed.

  Lemma fwd_inv s q : fwd s q -> is_stop q \/ exists mi c, q = EReq mi c /\ Inv s c.
  Proof.
    induction 1 as [km d s q Hkm Hv E|km mi c d s s' q Hf IH Hkm Ha E].
    - destruct (inv_init km d Hkm Hv) as (s1 & mi & c & E1 & HI). rewrite E in E1. inversion E1; subst. eauto.
    - destruct IH as [(o & x & Hq)|(mi' & c' & Hq & HI)]; [discriminate|]. inversion Hq; subst.
      destruct (inv_step km mi' c' d s HI Hkm Ha) as (s1 & [(o & x & E1)|(mi2 & c2 & E1 & HI2 & _)]);
        rewrite E in E1; inversion E1; subst.
      + left. red. eauto.
      + right. eauto.
  Qed.

  (** Statement used for C13. *)
  Lemma fwd_progress s mi c :
    fwd s (EReq mi c) ->
    forall km d, km_total km -> fwd_answer c d ->
    exists i y, d_index d = Some i /\ nth_error (ec_points c) (Z.to_nat i) = Some (xv y) /\
      exists s' q, en_iterate km (EReq mi c) (Some d) s = (s', Ok q) /\
        (is_stop q \/
         exists mi' c', q = EReq mi' c' /\
           (forall j row, nth_error F j = Some row -> (In j (idx_list (es_idx s')) <-> rvle row y)) /\
           ec_points c' <> [] /\
           (forall v, In v (ec_points c') -> exists y' z, v = xv y' /\ In z F /\ rvle z y' /\ rvle y' y)).
  Proof.
    intros Hf km d Hkm Ha.
    destruct (fwd_inv _ _ Hf) as [(o & x & Hq)|(mi' & c' & Hq & HI)]; [discriminate|]. inversion Hq; subst mi' c'.
    destruct Ha as (Hsb & [i [Hi Hir]] & Hch).
    pose proof HI as (Ef & En & Ev & _ & p & n & zb & El & Hn & Ecl & Ep & Hpnd & Hzne & Hzb & Epts & Ebd & Hids).
    assert (Hy : exists y, nth_error (ec_points c) (Z.to_nat i) = Some (xv y)).
    { rewrite Epts, xm_length, map_length in Hir. rewrite Epts, xm_nth, nth_error_map.
      destruct (nth_error zb (Z.to_nat i)) as [z|] eqn:Ez; [|apply nth_error_None in Ez; lia]. simpl. eauto. }
    destruct Hy as [y Hy]. exists i, y. repeat split; auto.
    destruct (inv_step km mi c d s HI Hkm) as (s' & [(o & x & E1)|(mi2 & c2 & E1 & HI2 & i2 & y2 & Ei2 & Ey2 & Ep2)]).
    { repeat split; eauto. }
    - exists s', (EStop o x). split; auto. left. red. eauto.
    - exists s', (EReq mi2 c2). split; auto. right. exists mi2, c2.
      rewrite Hi in Ei2. injection Ei2 as <-. rewrite Hy in Ey2. injection Ey2 as Eyy. apply xv_inj in Eyy. subst y2.
      destruct HI2 as (Ef2 & En2 & Ev2 & _ & p2 & n2 & zb2 & El2 & Hn2 & Ecl2 & Ep2' & Hpnd2 & Hzne2 & Hzb2 & Epts2 & Ebd2 & Hids2).
      rewrite Ep2 in Ep2'. injection Ep2' as Eyp. apply xv_inj in Eyp. subst p2.
      repeat split; auto.
      + intros Hj. apply (Hids2 j row H); auto.
      + intros Hj. apply (Hids2 j row H); auto.
      + rewrite Epts2. destruct zb2; [contradiction|discriminate].
      + intros v Hv. rewrite Epts2 in Hv. unfold xm in Hv. rewrite map_map in Hv. apply in_map_iff in Hv.
        destruct Hv as [z [<- Hz]]. rewrite Forall_forall in Hzb2. destruct (Hzb2 z Hz) as [HzF Hzy].
        exists (step_towards n2 y z), z. split; auto. split; auto. apply rcomb_step_between; auto.
  Qed.
End Two.
