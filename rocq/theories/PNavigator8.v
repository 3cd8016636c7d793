(** * NAUTILUS Navigator: lemmas stated on sessions, used by PropsNavigator. *)
From Coq Require Import ZArith List Bool Lia Reals Lra Floats.
From Verif Require Import Num NumXR NumF64 Py Np Spec NpFacts XRFacts MNavigator SNavigator PENautilus PNavigator PNavigator2 PNavigator3 PNavigator4 PNavigator5 PNavigator6 PNavigator7.
Import ListNotations.

Lemma Forall2_mono {A B} (P Q : A -> B -> Prop) l m : (forall a b, P a b -> Q a b) -> Forall2 P l m -> Forall2 Q l m.
Proof. induction 2; constructor; auto. Qed.

Section Gen.
  Context {N : NumOps} (L : OrdLaws N).
  Notation vec := (list N).
  Notation mat := (list (list N)).
  Implicit Types (asf : @asf_fn N) (s : nv_state N) (d : nv_dict N) (c : nv_content N) (q : nv_request N)
    (front : list (list N)).

  Lemma reach_forward k asf front ideal nadir vars s qs c d s' c' :
    setup k front ideal nadir vars -> nv_reach asf front ideal nadir vars s qs -> In (NReq c) qs ->
    nv_validate c d = Ok tt -> forward d -> nv_iterate asf (NReq c) (Some d) s = (s', Ok (NReq c')) ->
    ginv k front ideal nadir vars s qs /\ nv_request_of s' = NReq c' /\
    exists ref speed ub, nd_ref d = Some ref /\ nd_speed d = Some speed /\ nd_bounds d = Some ub /\ length (to_floats ub) = k /\
      forward_spec asf s ref speed (to_floats ub) s' (NReq c').
  Proof.
    intros Hs Hr Hin Hv [Hf1 Hf2] Hi. pose proof (ginv_reach L _ _ _ _ _ _ _ _ Hs Hr) as G.
    pose proof (reach_outcome L _ _ _ _ _ _ _ _ _ _ _ _ Hs Hr Hin Hv Hi) as Ho.
    split; auto. destruct Ho as [? ? Hst _ _ _ _|? Hst Hp _ _ _ _|ref speed ub Hst Hp H1 H2 H3 H4 H5 H6|? ? ? ? ? ? ? ? ? ? ? H6]; try congruence.
    assert (E : nv_request_of s' = NReq c') by congruence. split; [exact E|]. exists ref, speed, ub. rewrite E in H5. auto 10.
  Qed.

  Lemma counters k asf front ideal nadir vars s qs :
    setup k front ideal nadir vars -> nv_reach asf front ideal nadir vars s qs ->
    (ns_step s + ns_left s = 101 /\ 1 <= ns_left s <= 100)%Z /\
    forall c, In (NReq c) qs -> (nc_step c + nc_left c = 101 /\ 1 <= nc_left c <= 100)%Z.
  Proof.
    intros Hs Hr. pose proof (ginv_reach L _ _ _ _ _ _ _ _ Hs Hr) as G. split; [apply (g_wf _ _ _ _ _ _ _ G)|].
    intros c Hc. apply (g_reqs _ _ _ _ _ _ _ G _ Hc).
  Qed.

  Lemma only_value_error k asf front ideal nadir vars s qs c d s' e :
    setup k front ideal nadir vars -> nv_reach asf front ideal nadir vars s qs -> In (NReq c) qs ->
    nv_validate c d = Ok tt -> nv_iterate asf (NReq c) (Some d) s = (s', Raise e) ->
    e = ValueErr /\ forward d /\
    ((ns_step s <> 1%Z /\ s' = s) \/
     (ns_step s = 1%Z /\ exists v, s' = MkNS (ns_front s) (ns_ideal s) (ns_nadir s) (ns_vars s) (ns_lb s) (ns_ub s) (ns_bounds s) (ns_idx s)
                                        (ns_step s) (ns_left s) (ns_dist s) v (ns_ref s) (ns_nav s) (ns_proj s))).
  Proof.
    intros Hs Hr Hin Hv Hi. pose proof (reach_outcome L _ _ _ _ _ _ _ _ _ _ _ _ Hs Hr Hin Hv Hi) as Ho.
    destruct Ho as [? ? ? ? ? ? E|? ? ? ? ? ? E|? ? ? ? ? ? ? ? ? ? E|ref speed ub Hst Hp H1 H2 H3 H4 H5 Hs' E]; try discriminate E.
    injection E as ->. split; auto. split; [split; auto|].
    destruct (Z.eqb_spec (ns_step s) 1) as [E1|E1]; [right|left; auto]. split; auto. exists (Some speed). exact Hs'.
  Qed.

  Lemma forward_counters k asf front ideal nadir vars s qs c d s' c' :
    setup k front ideal nadir vars -> nv_reach asf front ideal nadir vars s qs -> In (NReq c) qs ->
    nv_validate c d = Ok tt -> forward d -> nv_iterate asf (NReq c) (Some d) s = (s', Ok (NReq c')) ->
    nc_left c' = (if (ns_left s =? 1)%Z then 1 else ns_left s - 1)%Z /\
    nc_step c' = (if (ns_left s =? 1)%Z then 100 else ns_step s + 1)%Z.
  Proof.
    intros Hs Hr Hin Hv Hf Hi. destruct (reach_forward _ _ _ _ _ _ _ _ _ _ _ _ Hs Hr Hin Hv Hf Hi) as (G & Hq & ref & speed & ub & _ & _ & _ & _ & Hsp).
    pose proof (wf_count _ _ (g_wf _ _ _ _ _ _ _ G)) as Hc.
    destruct Hsp as (again & pi & proj & nav & rows & lb & ub' & dist & idx & _ & _ & _ & _ & _ & _ & _ & _ & -> & _).
    unfold nv_request_of in Hq. injection Hq as <-. cbn [nc_left nc_step ns_step ns_left].
    destruct (Z.eqb_spec (ns_left s) 1); split; lia.
  Qed.

  Lemma forward_bounds k asf front ideal nadir vars s qs c d s' c' :
    2 <= k -> setup k front ideal nadir vars -> enclosed front ideal nadir ->
    nv_reach asf front ideal nadir vars s qs -> In (NReq c) qs ->
    nv_validate c d = Ok tt -> forward d -> nv_iterate asf (NReq c) (Some d) s = (s', Ok (NReq c')) ->
    vle (ns_lb s) (nc_lb c') /\ vle (nc_ub c') (ns_ub s) /\ incl (idx_list (nc_idx c')) (idx_list (ns_idx s)) /\
    exists rows ub, take front (idx_list (ns_idx s)) = Ok rows /\ nd_bounds d = Some ub /\
      bounds_are rows (nc_nav c') (to_floats ub) (ns_lb s) (ns_ub s) (nc_lb c') (nc_ub c').
  Proof.
    intros Hk Hs He Hr Hin Hv Hf Hi. destruct (reach_forward _ _ _ _ _ _ _ _ _ _ _ _ Hs Hr Hin Hv Hf Hi) as (G & Hq & ref & speed & ub & Hd1 & _ & Hd3 & Hl & Hsp).
    destruct (boxed_reach L _ _ _ _ _ _ _ _ Hk Hs He Hr) as [B _]. rewrite <- (g_front _ _ _ _ _ _ _ G) in B.
    destruct (forward_nested L k asf s ref speed (to_floats ub) s' _ Hk (g_wf _ _ _ _ _ _ _ G) Hl B Hsp) as (H1 & H2 & H3 & _ & rows & H5 & H6).
    unfold nv_request_of in Hq. injection Hq as <-. cbn. split; auto. split; auto. split; auto.
    exists rows, ub. rewrite <- (g_front _ _ _ _ _ _ _ G). auto.
  Qed.

  Lemma forward_reachable k asf front ideal nadir vars s qs c d s' c' :
    setup k front ideal nadir vars ->
    nv_reach asf front ideal nadir vars s qs -> In (NReq c) qs ->
    nv_validate c d = Ok tt -> forward d -> nv_iterate asf (NReq c) (Some d) s = (s', Ok (NReq c')) ->
    increasing (idx_list (nc_idx c')) /\
    forall i, In i (idx_list (nc_idx c')) <-> exists row, nth_error front i = Some row /\ in_box row (nc_lb c') (nc_ub c').
  Proof.
    intros Hs Hr Hin Hv Hf Hi. destruct (reach_forward _ _ _ _ _ _ _ _ _ _ _ _ Hs Hr Hin Hv Hf Hi) as (G & Hq & ref & speed & ub & Hd1 & _ & Hd3 & Hl & Hsp).
    destruct Hsp as (again & pi & proj & nav & rows & lb & ub' & dist & idx & _ & _ & _ & _ & _ & Hb & _ & Hix & -> & _).
    destruct G as [W G1 _ _ _ _]. rewrite (wf_nadir _ _ W) in Hb. apply bounds_spec_len in Hb. destruct Hb as (Hb1 & Hb2 & _).
    rewrite (nv_reachable_eq k) in Hix by (auto; apply (wf_front _ _ W)). injection Hix as <-.
    unfold nv_request_of in Hq. injection Hq as <-. cbn [nc_idx ns_idx nc_lb nc_ub ns_lb ns_ub]. rewrite idx_list_squeeze, G1.
    split; [apply box_idx_increasing|]. intros i. apply box_idx_spec.
  Qed.

  Lemma issued_reachable k asf front ideal nadir vars s qs c :
    2 <= k -> setup k front ideal nadir vars -> enclosed front ideal nadir ->
    nv_reach asf front ideal nadir vars s qs -> In (NReq c) qs ->
    increasing (idx_list (nc_idx c)) /\
    forall i, In i (idx_list (nc_idx c)) <-> exists row, nth_error front i = Some row /\ in_box row (nc_lb c) (nc_ub c).
  Proof.
    intros Hk Hs He Hr Hin. destruct (boxed_reach L _ _ _ _ _ _ _ _ Hk Hs He Hr) as [_ B]. destruct (B _ Hin) as [-> _].
    split; [apply box_idx_increasing|]. intros i. apply box_idx_spec.
  Qed.

  Lemma back_restores k asf front ideal nadir vars s qs c d s' out :
    setup k front ideal nadir vars -> nv_reach asf front ideal nadir vars s qs -> In (NReq c) qs ->
    nv_validate c d = Ok tt -> nd_prev d = Some (VBool true) -> nd_stop d = Some (VBool false) ->
    nv_iterate asf (NReq c) (Some d) s = (s', out) ->
    exists ub, nd_bounds d = Some ub /\
      out = Ok (NReq (MkNC (nc_ideal c) (nc_nadir c) (nc_lb c) (nc_ub c) (to_floats ub) (nc_idx c) (nc_step c) (nc_left c) (nc_dist c)
                           (ns_speed s) (nc_nav c))) /\
      s' = MkNS (ns_front s) (nc_ideal c) (nc_nadir c) (ns_vars s) (nc_lb c) (nc_ub c) (to_floats ub) (nc_idx c) (nc_step c)
                (nc_left c) (nc_dist c) (ns_speed s) (ns_ref s) (nc_nav c) (ns_proj s).
  Proof.
    intros Hs Hr Hin Hv Hp Hst Hi. pose proof (ginv_reach L _ _ _ _ _ _ _ _ Hs Hr) as G.
    pose proof (reach_outcome L _ _ _ _ _ _ _ _ _ _ _ _ Hs Hr Hin Hv Hi) as Ho.
    destruct Ho as [? ? Ha _ _ _ _|ub _ _ H1 H2 H3 H4|? ? ? _ Hb _ _ _ _ _ _|? ? ? ? Hb ? ? ? ? ? ? _]; try congruence.
    exists ub. pose proof (g_reqs _ _ _ _ _ _ _ G _ Hin) as C. rewrite (cw_ideal _ _ _ C), (cw_nadir _ _ _ C).
    split; auto. split; [|auto]. rewrite H4, H3. reflexivity.
  Qed.

  (** Two forward answers from states with the same visible situation, both of
      which project the reference point anew. *)
  Lemma forward_det asf s1 s2 ref speed1 speed2 (bounds : vec) s1' s2' q1 q2 :
    ns_front s1 = ns_front s2 -> nv_request_of (w_speed None s1) = nv_request_of (w_speed None s2) ->
    reprojects s1 ref true -> reprojects s2 ref true ->
    forward_spec asf s1 ref speed1 bounds s1' q1 -> forward_spec asf s2 ref speed2 bounds s2' q2 ->
    nv_request_of (w_speed None s1') = nv_request_of (w_speed None s2') /\ ns_proj s1' = ns_proj s2'.
  Proof.
    intros HF Hq R1 R2 (a1 & pi1 & p1 & nav1 & rows1 & lb1 & ub1 & ds1 & ix1 & Ha1 & Hp1 & Hpr1 & Hn1 & Ht1 & Hb1 & Hd1 & Hi1 & -> & _)
           (a2 & pi2 & p2 & nav2 & rows2 & lb2 & ub2 & ds2 & ix2 & Ha2 & Hp2 & Hpr2 & Hn2 & Ht2 & Hb2 & Hd2 & Hi2 & -> & _).
    assert (Ra : forall s (a : bool), reprojects s ref true -> reprojects s ref a -> a = true).
    { intros s a [[? ?]|[? (r & cl & E1 & E2 & E3)]] [[? ?]|[? (r' & cl' & E1' & E2' & E3')]]; subst; auto; try congruence. }
    apply Ra in Ha1; auto. apply Ra in Ha2; auto. subst a1 a2.
    unfold nv_request_of in Hq. injection Hq as Q1 Q2 Q3 Q4 Q5 Q6 Q7 Q8 Q9 Q10. cbn in Q1, Q2, Q3, Q4, Q5, Q6, Q7, Q8, Q9, Q10.
    unfold projection in Hp1. rewrite HF, Q1, Q2, Q5, Q6 in Hp1.
    assert (pi1 = pi2).
    { destruct Hp1 as (b1 & E1 & E2), Hp2 as (b2 & E1' & E2'). unfold admissible_mask in *. assert (b1 = b2) by congruence. subst b2. congruence. }
    subst pi2. rewrite HF in Hpr1. assert (p1 = p2) by congruence. subst p2. rewrite Q10, Q8 in Hn1. assert (nav1 = nav2) by congruence. subst nav2.
    rewrite HF, Q6 in Ht1. assert (rows1 = rows2) by congruence. subst rows2.
    rewrite HF, Q2, Q3, Q4 in Hb1.
    assert (lb1 = lb2 /\ ub1 = ub2) as [-> ->].
    { destruct Hb1 as (_ & b1 & bs1 & E1 & E2 & E3 & E4), Hb2 as (_ & b2 & bs2 & E1' & E2' & E3' & E4').
      assert (b1 = b2) by congruence. subst b2. assert (bs1 = bs2) by congruence. subst bs2. split; congruence. }
    rewrite Q2 in Hd1. assert (ds1 = ds2) by congruence. subst ds2. rewrite HF in Hi1. assert (ix1 = ix2) by congruence. subst ix2.
    cbn. rewrite Q1, Q2, Q7, Q8. auto.
  Qed.

  Lemma forward_proj k asf front ideal nadir vars s qs c d s' c' ref :
    setup k front ideal nadir vars -> nv_reach asf front ideal nadir vars s qs -> In (NReq c) qs ->
    nv_validate c d = Ok tt -> forward d -> nd_ref d = Some ref -> nv_iterate asf (NReq c) (Some d) s = (s', Ok (NReq c')) ->
    exists p, ns_proj s' = Some p /\ p < length front /\
      ((projection asf s ref p /\ ns_ref s' = Some ref /\
        (ns_step s = 1%Z \/ exists r0, ns_ref s = Some r0 /\ allclose ref r0 = Ok false)) \/
       (ns_step s <> 1%Z /\ ns_proj s = Some p /\ ns_ref s' = ns_ref s /\ exists r0, ns_ref s = Some r0 /\ allclose ref r0 = Ok true)).
  Proof.
    intros Hs Hr Hin Hv Hf Hd Hi. destruct (reach_forward _ _ _ _ _ _ _ _ _ _ _ _ Hs Hr Hin Hv Hf Hi) as (G & Hq & ref' & speed & ub & Hd1 & _ & Hd3 & Hl & Hsp).
    rewrite Hd in Hd1. injection Hd1 as <-.
    destruct Hsp as (again & pi & proj & nav & rows & lb & ub' & dist & idx & Hr1 & Hp & Hpr & _ & _ & _ & _ & _ & -> & _).
    cbn [ns_proj ns_ref]. exists pi. split; auto. split.
    { rewrite <- (g_front _ _ _ _ _ _ _ G). apply nth_error_Some. congruence. }
    destruct again; [left|right].
    - split; auto. split; auto. destruct Hr1 as [[? _]|[_ (r0 & cl & E1 & E2 & E3)]]; [auto|]. destruct cl; [discriminate|]. eauto.
    - destruct Hr1 as [[_ ?]|[E0 (r0 & cl & E1 & E2 & E3)]]; [discriminate|]. destruct cl; [|discriminate]. eauto 10.
  Qed.

  Lemma validate_iff c d k : length (nc_ideal c) = k -> length (nc_nadir c) = k ->
    (nv_validate c d = Ok tt <->
     exists ref speed z b ub b', d = MkND (Some ref) (Some speed) (Some (VBool b)) (Some ub) (Some (VBool b')) /\
       py_int speed = Some z /\ (1 <= z <= 5)%Z /\ length ub = k /\
       bany nltb ref (nc_ideal c) = Ok false /\ bany (fun x y => nltb y x) ref (nc_nadir c) = Ok false).
  Proof.
    intros Hi Hn. split.
    - unfold nv_validate. destruct d as [[ref|] [speed|] [prev|] [ub|] [stop|]]; cbn [nd_ref nd_speed nd_prev nd_bounds nd_stop]; try discriminate.
      destruct (bany nltb ref (nc_ideal c)) as [[|]|] eqn:E1; try discriminate.
      destruct (bany _ ref (nc_nadir c)) as [[|]|] eqn:E2; try discriminate.
      destruct (py_int speed) as [z|] eqn:Ez; try discriminate.
      destruct ((1 <=? z)%Z && (z <=? 5)%Z) eqn:E3; cbn [negb]; [|discriminate]. apply andb_true_iff in E3. rewrite !Z.leb_le in E3.
      destruct prev; try discriminate. destruct (Nat.eqb_spec (length ub) (length (nc_ideal c))); try discriminate. cbn [negb].
      destruct stop; try discriminate. intros _. exists ref, speed, z, b, ub, b0. rewrite <- Hi. repeat split; auto; apply E3.
    - intros (ref & speed & z & b & ub & b' & -> & Hz & Hz' & Hu & H1 & H2).
      unfold nv_validate. cbn [nd_ref nd_speed nd_prev nd_bounds nd_stop]. rewrite H1, H2, Hz, Hu, Hi.
      assert ((1 <=? z)%Z && (z <=? 5)%Z = true) as -> by (apply andb_true_iff; rewrite !Z.leb_le; lia).
      cbn [negb]. rewrite Nat.eqb_refl. reflexivity.
  Qed.

  Lemma bany_false (f : N -> N -> bool) (a b : vec) : length a = length b ->
    (bany f a b = Ok false <-> forall i x y, nth_error a i = Some x -> nth_error b i = Some y -> f x y = false).
  Proof.
    intros Hl. unfold bany, bcast2, rmap. rewrite Hl, Nat.eqb_refl. revert b Hl.
    induction a as [|x a IH]; intros [|y b] Hl; cbn [zipw existsb]; try discriminate Hl.
    - split; auto. intros _ [|i] ? ? H; discriminate H.
    - injection Hl as Hl. specialize (IH _ Hl). split.
      + intros H. injection H as H. apply orb_false_iff in H. destruct H as [H1 H2].
        intros [|i] x' y' Hx Hy; cbn in Hx, Hy; [congruence|]. apply (proj1 IH) with (i := i); auto. congruence.
      + intros H. rewrite (H 0 x y eq_refl eq_refl). cbn [orb]. apply IH. intros i x' y' Hx Hy. apply (H (S i)); auto.
  Qed.

  Lemma bany_wrong (f : N -> N -> bool) (a b : vec) : length a <> length b -> length a <> 1 -> length b <> 1 ->
    bany f a b = Raise ValueErr.
  Proof.
    intros H H1 H2. unfold bany, bcast2, rmap. destruct (Nat.eqb_spec (length a) (length b)); [contradiction|].
    destruct a as [|? [|? ?]], b as [|? [|? ?]]; cbn in *; try congruence.
  Qed.

  Lemma validate_exn c d e : nv_validate c d = Raise e ->
    e = MethodExn \/ (e = TypeErr /\
      ((exists v, nd_prev d = Some v /\ forall b, v <> VBool b) \/ (exists v, nd_stop d = Some v /\ forall b, v <> VBool b))).
  Proof.
    unfold nv_validate. destruct d as [[ref|] [speed|] [prev|] [ub|] [stop|]]; cbn [nd_ref nd_speed nd_prev nd_bounds nd_stop];
      try (intros H; injection H as <-; auto; fail).
    destruct (bany nltb ref (nc_ideal c)) as [[|]|] eqn:E1; try (intros H; injection H as <-; auto; fail).
    destruct (bany _ ref (nc_nadir c)) as [[|]|] eqn:E2; try (intros H; injection H as <-; auto; fail).
    destruct (py_int speed) as [z|] eqn:Ez; try (intros H; injection H as <-; auto; fail).
    destruct (negb ((1 <=? z)%Z && (z <=? 5)%Z)); try (intros H; injection H as <-; auto; fail).
    destruct prev; try (intros H; injection H as <-; right; split; auto; left; eexists; split; eauto; discriminate).
    destruct (negb (length ub =? length (nc_ideal c))); try (intros H; injection H as <-; auto; fail).
    destruct stop; intros H; try discriminate H; injection H as <-; right; split; auto; right; eexists; split; eauto; discriminate.
  Qed.
End Gen.
