(** * E-NAUTILUS with IEEE doubles: how far shown points can leave the box. *)
From Coq Require Import ZArith List Bool Lia Reals Lra Floats.
From Flocq Require Import Core.
From Verif Require Import Num NumXR NumF64 Py Np Spec NpFacts MENautilus PENautilus PENautilus2 PENautilus3 PENautilus4 PENautilus5 F64Sums F64Step SFloat F64Vec PENautilus6.
Import ListNotations.
Local Open Scope R_scope.

Section Box.
  Variables (F : list (list F64)) (id nd ideal : list F64) (vars : option (list (list F64))) (e : Z).
  Hypothesis He : (-1000 <= e <= 1018)%Z.
  Hypothesis Hid : length id = length nd.
  Hypothesis HF : Forall (fun r => length r = length nd) F.
  Hypothesis HFb : forall r j a b x, In r F -> nth_error id j = Some a -> nth_error nd j = Some b -> nth_error r j = Some x -> fval a <= fval x <= fval b.
  Hypothesis Hb1 : fin_below e id.
  Hypothesis Hb2 : fin_below e nd.
  Hypothesis Hb3 : Forall (fin_below e) F.
  Hypothesis Hidnd : forall j a b, nth_error id j = Some a -> nth_error nd j = Some b -> fval a <= fval b.

  Definition near_box (t : R) (y : list F64) : Prop :=
    length y = length nd /\
    forall j a b x, nth_error id j = Some a -> nth_error nd j = Some b -> nth_error y j = Some x ->
      ffin x /\ fval a - t * bpow radix2 (e - 49) <= fval x <= fval b + t * bpow radix2 (e - 49).

  Lemma near_mono t t' y : t <= t' -> near_box t y -> near_box t' y.
  Proof.
    intros Ht [H1 H2]. split; auto. intros j a b x Ha Hb Hx. destruct (H2 j a b x Ha Hb Hx) as (A & B & C).
    assert (0 <= bpow radix2 (e - 49)) by apply bpow_ge_0.
    assert (t * bpow radix2 (e - 49) <= t' * bpow radix2 (e - 49)) by (apply Rmult_le_compat_r; auto). split; auto. lra.
  Qed.

  Lemma nth_same {A B} (l : list A) (l' : list B) j x : length l = length l' -> nth_error l j = Some x -> exists y, nth_error l' j = Some y.
  Proof.
    intros HL H. destruct (nth_error l' j) eqn:E; [eauto|]. apply nth_error_None in E.
    assert (X : nth_error l j <> None) by congruence. apply nth_error_Some in X. lia.
  Qed.
  Lemma below_nth v j x : fin_below e v -> nth_error v j = Some x -> ffin x /\ Rabs (fval x) <= bpow radix2 e.
  Proof. intros H Hx. unfold fin_below in H. rewrite Forall_forall in H. apply H. eapply nth_error_In; eauto. Qed.

  Lemma near_abs t y j x : 0 <= t <= bpow radix2 49 -> near_box t y -> nth_error y j = Some x -> ffin x /\ Rabs (fval x) <= bpow radix2 (e + 1).
  Proof.
    intros Ht [H1 H2] Hx. destruct (nth_same y nd j x) as [b Hb]; auto. destruct (nth_same y id j x) as [a Ha]; [congruence|auto|].
    destruct (H2 j a b x Ha Hb Hx) as (A & B). split; auto.
    destruct (below_nth _ _ _ Hb1 Ha) as [_ Ba]. destruct (below_nth _ _ _ Hb2 Hb) as [_ Bb].
    apply Rabs_le_inv in Ba. apply Rabs_le_inv in Bb.
    assert (E : t * bpow radix2 (e - 49) <= bpow radix2 e).
    { replace e with (49 + (e - 49))%Z at 2 by ring. rewrite (bpow_plus radix2 49). apply Rmult_le_compat_r; [apply bpow_ge_0|apply Ht]. }
    rewrite bpow_plus. change (bpow radix2 1) with 2. apply Rabs_le. lra.
  Qed.
  Lemma near_below t y : 0 <= t <= bpow radix2 49 -> near_box t y -> fin_below 1020 y.
  Proof.
    intros Ht H. apply Forall_forall. intros x Hx. apply In_nth_error in Hx. destruct Hx as [j Hj].
    destruct (near_abs t y j x Ht H Hj) as [A B]. split; auto. eapply Rle_trans; [exact B|]. apply bpow_le. lia.
  Qed.
  Lemma rows_1020 : Forall (fin_below 1020) F.
  Proof.
    eapply Forall_impl; [|exact Hb3]. intros r Hr. eapply Forall_impl; [|exact Hr]. intros x [A B]. split; auto.
    eapply Rle_trans; [exact B|]. apply bpow_le. lia.
  Qed.

  Lemma near_step t n p z v : 0 <= t <= bpow radix2 49 -> (1 <= n)%Z -> near_box t p -> In z F -> rounded_step n p z v -> near_box (t + 1) v.
  Proof.
    intros Ht Hn Hp Hz (L1 & L2 & H). pose proof (proj1 Hp) as Lp. split; [congruence|].
    intros j a b x Ha Hb Hx.
    destruct (nth_same v p j x) as [pj Hpj]; [auto|auto|]. destruct (nth_same v z j x) as [zj Hzj]; [auto|auto|].
    destruct (H j pj zj x Hpj Hzj Hx) as [Fx Bx]. split; auto.
    destruct (near_abs t p j pj Ht Hp Hpj) as [_ Ap]. destruct (proj2 Hp j a b pj Ha Hb Hpj) as [_ Bp].
    pose proof (HFb z j a b zj Hz Ha Hb Hzj) as Bz. rewrite Forall_forall in Hb3. destruct (below_nth _ _ _ (Hb3 z Hz) Hzj) as [_ Az].
    assert (Az' : Rabs (fval zj) <= bpow radix2 (e + 1)) by (eapply Rle_trans; [exact Az|apply bpow_le; lia]).
    assert (Hnp : 1 <= IZR n) by (apply IZR_le; auto).
    set (d := 1 / IZR n) in *. assert (Hd : 0 < d <= 1).
    { unfold d. split; [apply Rdiv_lt_0_compat; lra|]. apply (Rmult_le_reg_r (IZR n)); [lra|]. unfold Rdiv. rewrite Rmult_assoc, Rinv_l by lra. lra. }
    assert (Ec : IZR (n - 1) / IZR n = 1 - d) by (unfold d; rewrite minus_IZR; field; lra). rewrite Ec in Bx.
    assert (E1 : bpow radix2 (-51) * ((1 - d) * Rabs (fval pj) + d * Rabs (fval zj)) + bpow radix2 (-1073) <= bpow radix2 (e - 49)).
    { assert (X : (1 - d) * Rabs (fval pj) + d * Rabs (fval zj) <= bpow radix2 (e + 1)).
      { assert ((1 - d) * Rabs (fval pj) <= (1 - d) * bpow radix2 (e + 1)) by (apply Rmult_le_compat_l; lra).
        assert (d * Rabs (fval zj) <= d * bpow radix2 (e + 1)) by (apply Rmult_le_compat_l; lra). lra. }
      assert (Y : bpow radix2 (-51) * ((1 - d) * Rabs (fval pj) + d * Rabs (fval zj)) <= bpow radix2 (e - 50)).
      { replace (e - 50)%Z with (-51 + (e + 1))%Z by ring. rewrite (bpow_plus radix2 (-51)). apply Rmult_le_compat_l; [apply bpow_ge_0|auto]. }
      assert (W : bpow radix2 (-1073) <= bpow radix2 (e - 50)) by (apply bpow_le; lia).
      replace (e - 49)%Z with (1 + (e - 50))%Z by ring. rewrite (bpow_plus radix2 1). change (bpow radix2 1) with 2. lra. }
    apply Rabs_le_inv in Bx. set (D := bpow radix2 (e - 49)) in *.
    assert (HD : 0 <= D) by apply bpow_ge_0. assert (0 <= t * D) by (apply Rmult_le_pos; lra).
    assert (G1 : (1 - d) * (fval a - t * D) <= (1 - d) * fval pj) by (apply Rmult_le_compat_l; lra).
    assert (G2 : (1 - d) * fval pj <= (1 - d) * (fval b + t * D)) by (apply Rmult_le_compat_l; lra).
    assert (G3 : d * fval a <= d * fval zj) by (apply Rmult_le_compat_l; lra).
    assert (G4 : d * fval zj <= d * fval b) by (apply Rmult_le_compat_l; lra).
    assert (G5 : 0 <= d * (t * D)) by (apply Rmult_le_pos; lra).
    assert (G6 : (t + 1) * D = t * D + D) by ring. rewrite G6.
    assert (G7 : (1 - d) * (fval a - t * D) = fval a - d * fval a - t * D + d * (t * D)) by ring.
    assert (G8 : (1 - d) * (fval b + t * D) = fval b - d * fval b + t * D - d * (t * D)) by ring. lra.
  Qed.

  Definition near_req (t : R) (q : en_request F64) : Prop :=
    match q with
    | EReq mi c => (1 <= ec_left c)%Z /\ Forall (near_box t) (ec_points c)
    | EStop o x => near_box t o
    | EInit _ _ => True
    end.
  Lemma near_req_mono t t' q : t <= t' -> near_req t q -> near_req t' q.
  Proof.
    intros Ht. destruct q; cbn; auto.
    - intros [A B]. split; auto. eapply Forall_impl; [|exact B]. intros y. apply near_mono; auto.
    - apply near_mono; auto.
  Qed.
  Lemma stop_obj s (p : list F64) o x : en_stop s p = Ok (EStop o x) -> o = p.
  Proof.
    unfold en_stop. destruct (es_vars s).
    - intros H. apply rbind_ok in H. destruct H as [a [_ H]]. apply rbind_ok in H. destruct H as [i [_ H]].
      apply rbind_ok in H. destruct H as [y [_ H]]. injection H as <- _. auto.
    - intros H. injection H as <- _. auto.
  Qed.

  Lemma shown_near t p n c mi : 0 <= t <= bpow radix2 49 -> (1 <= n)%Z -> near_box t p -> (ec_left c <= 2 ^ 53)%Z ->
    shown_doubles F nd p n c -> near_req (t + 1) (EReq mi c).
  Proof.
    intros Ht Hn Hp Hl S. pose proof (proj1 S) as El. cbn. split; [lia|].
    destruct (shown_rounded F nd (length nd) p n c HF (proj1 Hp) rows_1020 (near_below t p Ht Hp) ltac:(lia) S) as (zb & Hin & Hr).
    apply Forall_forall. intros y Hy. destruct (Forall2_In_r _ _ _ _ Hr Hy) as (z & Hz & Hs). eapply near_step; eauto.
  Qed.

  Theorem session_near s qs :
    en_session F ideal nd vars s qs -> (forall mi c, In (EReq mi c) qs -> (ec_left c <= 2 ^ 53)%Z) -> (Z.of_nat (length qs) <= 2 ^ 49)%Z ->
    Forall (near_req (IZR (Z.of_nat (length qs)))) qs.
  Proof.
    induction 1 as [|s qs q resp km s' out Hs IH Hin Hh E]; intros Hc Hlen; [constructor; simpl; auto|].
    destruct out as [q'|er]; [|auto].
    assert (Hc' : forall mi c, In (EReq mi c) qs -> (ec_left c <= 2 ^ 53)%Z) by (intros mi c H; apply (Hc mi c); right; auto).
    cbn [length] in Hlen |- *. rewrite Nat2Z.inj_succ in Hlen |- *. specialize (IH Hc' ltac:(lia)).
    set (t := IZR (Z.of_nat (length qs))) in *.
    assert (Et : IZR (Z.succ (Z.of_nat (length qs))) = t + 1) by (unfold Z.succ; rewrite plus_IZR; reflexivity). rewrite Et.
    assert (Ht : 0 <= t <= bpow radix2 49).
    { unfold t. split; [apply IZR_le; lia|]. change (bpow radix2 49) with (IZR (2 ^ 49)). apply IZR_le. lia. }
    constructor; [|eapply Forall_impl; [|exact IH]; intros q0; apply near_req_mono; lra].
    pose proof (session_reach _ _ _ _ _ _ Hs) as Hr.
    assert (Hq' : forall mi c, q' = EReq mi c -> (ec_left c <= 2 ^ 53)%Z) by (intros mi c ->; apply (Hc mi c); left; auto).
    rewrite Forall_forall in IH.
    destruct q as [i0 n0|mi0 c0|o0 x0].
    - destruct resp as [d|]; [|discriminate].
      destruct (initial_doubles F nd (length nd) HF eq_refl _ _ _ _ _ _ _ _ _ _ Hr E) as (mi & c & n & -> & En & S).
      apply (shown_near t nd n c mi); auto.
      + destruct (Hh d eq_refl) as [Hv _]. simpl in Hv.
        destruct (initial_validation d) as [[Hd _] _]. destruct (Hd Hv) as (ni & np' & zi & zp & E1 & E2 & E3 & E4 & E5 & E6).
        rewrite E1 in En. simpl in En. congruence.
      + split; auto. intros j a b x Ha Hb Hx. assert (x = b) by congruence. subst x.
        split; [apply (below_nth _ _ _ Hb2 Hb)|]. specialize (Hidnd j a b Ha Hb).
        assert (0 <= t * bpow radix2 (e - 49)) by (apply Rmult_le_pos; [apply Ht|apply bpow_ge_0]). lra.
      + eapply Hq'; eauto.
    - destruct resp as [d|]; [|discriminate].
      destruct (Hh d eq_refl) as (Hv & Hback & Hch). pose proof (IH _ Hin) as (Hl0 & Hpts).
      pose proof E as E'. cbn [en_iterate] in E.
      destruct (d_step_back d) as [[]|] eqn:Esb.
      + destruct (Hback eq_refl) as (mi1 & c1 & Hin1 & B1 & B2 & B3 & B4 & B5).
        destruct (en_back_ok _ _ _ _ _ _ E Esb) as (zs & lbs & ubs & n & ds & mi & E1 & E2 & E3 & E4 & E5 & _ & _ & ->).
        pose proof (near_req_mono t (t + 1) _ ltac:(lra) (IH _ Hin1)) as G. simpl in G |- *.
        rewrite B1 in E1. rewrite B4 in E4. injection E1 as <-. injection E4 as <-. exact G.
      + destruct (en_forward_ok _ _ _ _ _ _ E Esb) as (i & pv & n & Ei & Ep & El & Hcase).
        assert (Hp : near_box t pv) by (rewrite Forall_forall in Hpts; apply Hpts; eapply py_nth_In; eauto).
        destruct Hcase as [(_ & _ & Hst)|(Hn & lb & ub & ri & ch & n' & _ & _ & _ & Ech & Hn' & Es & Hsp)].
        * destruct (en_stop_is_stop _ _ _ Hst) as (o & x & ->). apply stop_obj in Hst. subst o. cbn. eapply near_mono; [|exact Hp]. lra.
        * destruct (next_doubles F nd (length nd) HF eq_refl km s' q' pv) as (mi & c & n2 & -> & El2 & S); auto; try (subst s'; cbn; reflexivity).
          { subst s'. cbn. apply (en_reach_data _ _ _ _ _ _ Hr). } { subst s'. cbn. apply (en_reach_data _ _ _ _ _ _ Hr). } { apply Hp. }
          assert (n2 = n') by (subst s'; cbn in El2; congruence). subst n2.
          apply (shown_near t pv n' c mi); auto; [|eapply Hq'; eauto].
          destruct ch; [|lia]. destruct (Hch eq_refl Ech) as (m & Em & Hm). rewrite Em in Hn'. injection Hn' as <-. auto.
      + unfold en_handle_request in E. rewrite Esb in E. discriminate.
    - cbn [en_iterate] in E. injection E as <- <-. apply (near_req_mono t); [lra|]. apply IH. auto.
  Qed.
End Box.
