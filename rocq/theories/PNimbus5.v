(** * NIMBUS: a feasible classification always succeeds; validators. *)
From Coq Require Import ZArith List Bool Lia.
From Verif Require Import Num Py Np Spec NpFacts MNimbus SNimbus PNimbus PNimbus2 PNimbus3 PNimbus4.
Import ListNotations.

Section Succ.
  Context {N : NumOps} (L : OrdLaws N).
  Notation vec := (list N).
  Notation mat := (list (list N)).
  Variable fin : N -> Prop.
  Hypothesis Hsub : forall x y, fin x -> fin y -> nleb (nofZ 0) (nsub y x) = nleb x y.
  Hypothesis Hfin : forall x, fin x -> nisnan x = false.
  Variables (av : @asf_val N) (k : nat) (objs decs : mat) (fc : vec -> nat) (ideal nadir : vec).
  Notation p := (PDisc k objs decs fc).
  Hypothesis HW : nb_wf fin p ideal nadir.
  Hypothesis AT : forall a row ref, exists v, av a row ref = Ok v.
  Hypothesis AF : forall a row ref v, Forall fin row -> av a row ref = Ok v -> nisnan v = false.

  Lemma current_honours cl (cur lv : vec) : Forall fin cur ->
    (forall i y u, nth_error cl i = Some CImpairUntil -> nth_error cur i = Some y -> nth_error lv i = Some u -> nleb y u = true) ->
    length lv = length cur -> honours cl cur lv cur.
  Proof.
    intros Fc H Hl i c x Hc Hx. assert (R : nleb x x = true).
    { apply (ol_refl N L). apply Hfin. rewrite Forall_forall in Fc. apply Fc. eapply nth_error_In; eauto. }
    destruct c; auto; try (exists x; auto; fail).
    destruct (nth_error lv i) as [u|] eqn:Eu; [eauto|]. apply nth_error_None in Eu.
    assert (i < length cur) by (apply nth_error_Some; congruence). lia.
  Qed.

  Lemma disc_total a ref c m j f : c objs = Ok m -> length m = length objs -> nth_error m j = Some true -> nth_error objs j = Some f ->
    Forall fin f -> exists i x g, disc_minimize av a ref objs (Some c) = Ok i /\ nth_error decs i = Some x /\ nth_error objs i = Some g.
  Proof.
    intros Hc Hl Hm Hf Ff. unfold disc_minimize. rewrite Hc. cbn [rbind].
    set (rows := zipw _ m objs). destruct (rseq_map_total (fun row => av a row ref) rows) as (vals & Hv); [intros; apply AT|].
    rewrite Hv. cbn [rbind]. apply rseq_map_ok in Hv.
    assert (Z : forall (m : list bool) (objs : mat) j row, nth_error m j = Some true -> nth_error objs j = Some row ->
       nth_error (zipw (fun (ok : bool) row => if ok then row else map (fun _ => nnan) row) m objs) j = Some row).
    { clear. induction m as [|b m IH]; intros [|r objs] [|j] row Hb Hr; cbn in *; try discriminate; auto. injection Hb as ->. injection Hr as <-. reflexivity. }
    specialize (Z _ _ _ _ Hm Hf). fold rows in Z.
    destruct (PNimbus.Forall2_nth_l _ _ _ _ _ Hv Z) as (v & Hvj & Hav).
    destruct (npnanargmin vals) as [i|e] eqn:E.
    - pose proof (npnanargmin_ok L _ _ E) as (v' & Hi & _). assert (Li : i < length objs).
      { assert (i < length vals) by (apply nth_error_Some; congruence). apply F2len in Hv. unfold rows in Hv. rewrite zipw_length in Hv. lia. }
      destruct (nth_error objs i) as [g|] eqn:Eg; [|apply nth_error_None in Eg; lia].
      destruct HW as (_ & _ & _ & _ & _ & HD). destruct (nth_error decs i) as [x|] eqn:Ex; [|apply nth_error_None in Ex; lia].
      exists i, x, g. auto.
    - exfalso. assert (F : Forall (fun y => nisnan y = true) vals) by (apply (npnanargmin_raise L); eauto).
      rewrite Forall_forall in F. pose proof (F v (nth_error_In _ _ Hvj)) as F'. rewrite (AF _ _ _ _ Ff Hav) in F'. discriminate.
  Qed.
  Lemma disc_total_free a ref : objs <> [] -> exists i x g, disc_minimize av a ref objs None = Ok i /\ nth_error decs i = Some x /\ nth_error objs i = Some g.
  Proof.
    intros HE. destruct HW as (_ & _ & _ & _ & HF & HD). unfold disc_minimize. cbn [rbind].
    destruct (rseq_map_total (fun row => av a row ref) objs) as (vals & Hv); [intros; apply AT|]. rewrite Hv. cbn [rbind]. apply rseq_map_ok in Hv.
    destruct (npnanargmin vals) as [i|e] eqn:E.
    - pose proof (npnanargmin_ok L _ _ E) as (v' & Hi & _). assert (Li : i < length objs).
      { assert (i < length vals) by (apply nth_error_Some; congruence). apply F2len in Hv. lia. }
      destruct (nth_error objs i) as [g|] eqn:Eg; [|apply nth_error_None in Eg; lia].
      destruct (nth_error decs i) as [x|] eqn:Ex; [|apply nth_error_None in Ex; lia].
      exists i, x, g. auto.
    - exfalso. assert (F : Forall (fun y => nisnan y = true) vals) by (apply (npnanargmin_raise L); eauto).
      destruct objs as [|f0 objs0]; [congruence|]. inversion Hv as [|? v ? vals' Hv0 Hv']; subst. inversion F; subst. inversion HF; subst.
      rewrite (AF _ _ _ _ H3 Hv0) in H1. discriminate.
  Qed.

  Lemma put_total inds : forall (z src : vec), Forall (fun i => i < length z /\ i < length src) inds -> exists z', put z inds src = Ok z' /\ length z' = length z.
  Proof.
    induction inds as [|i inds IH]; intros z src H; cbn [put]; [eauto|]. inversion H as [|? ? [H1 H2] H3]; subst.
    unfold at_. destruct (nth_error src i) as [v|] eqn:E; [|apply nth_error_None in E; lia]. cbn [rbind].
    destruct (set_ok z i v H1) as (z1 & E1 & E2). rewrite E1. cbn [rbind]. pose proof (set_nth_length _ _ _ _ E2) as Hl.
    destruct (IH z1 src) as (z' & Hz & Hl'); [rewrite Hl; exact H3|]. exists z'. split; congruence.
  Qed.
  Lemma where_lts cl c a b : length cl = a -> length cl = b -> Forall (fun i => i < a /\ i < b) (where_cls c cl).
  Proof. intros H1 H2. apply Forall_forall. intros i Hi. apply where_lt in Hi. lia. Qed.
  Lemma zbar_total cl (cur lv : vec) : length cl = k -> length cur = k -> length lv = k ->
    exists z, nb_zbar k ideal nadir cur lv (where_cls CImprove cl) (where_cls CImproveUntil cl) (where_cls CAccept cl) (where_cls CImpairUntil cl) (where_cls CFree cl) = Ok z.
  Proof.
    intros Hc Hu Hl. destruct HW as (_ & HI & HD & _). cbn in HI, HD. unfold nb_zbar.
    destruct (put_total (where_cls CImprove cl) (repeat (nofZ 0) k) ideal) as (z1 & -> & L1); [apply where_lts; rewrite ?repeat_length; congruence|]. rewrite repeat_length in L1. cbn [rbind].
    destruct (put_total (where_cls CImproveUntil cl) z1 lv) as (z2 & -> & L2); [apply where_lts; congruence|]. cbn [rbind].
    destruct (put_total (where_cls CAccept cl) z2 cur) as (z3 & -> & L3); [apply where_lts; congruence|]. cbn [rbind].
    destruct (put_total (where_cls CImpairUntil cl) z3 lv) as (z4 & -> & L4); [apply where_lts; congruence|]. cbn [rbind].
    destruct (put_total (where_cls CFree cl) z4 nadir) as (z5 & -> & L5); [apply where_lts; congruence|]. eauto.
  Qed.

  Lemma new_solutions_total s cl lv m : matches p (bs_sol s) (bs_obj s) -> length cl = k -> length lv = k -> Forall fin lv ->
    (forall i y u, nth_error cl i = Some CImpairUntil -> nth_error (bs_obj s) i = Some y -> nth_error lv i = Some u -> nleb y u = true) ->
    exists q, nb_new_solutions av p ideal nadir s m lv (where_cls CImprove cl) (where_cls CImproveUntil cl) (where_cls CAccept cl) (where_cls CImpairUntil cl) (where_cls CFree cl) = Ok q.
  Proof.
    intros Hm Hcl Hlv Flv Hge. destruct (obj_wf fin _ _ _ HW _ _ Hm) as [O1 O2]. cbn in O1.
    pose proof HW as HW'. destruct HW' as (K & _ & _ & W1 & W2 & W3).
    pose proof Hm as Hm'. destruct Hm' as (j & _ & Hj).
    assert (HE : objs <> []) by (intros E; rewrite E in Hj; destruct j; discriminate).
    assert (SF : forall a z, exists r, nb_solve av p (bs_sol s) a z None None = Ok r).
    { intros a z. destruct (disc_total_free a z HE) as (i & x & g & E1 & E2 & E3). unfold nb_solve. rewrite E1. cbn [rbind]. rewrite (proj2 (at_ok _ _ _) E2), (proj2 (at_ok _ _ _) E3). cbn [rbind]. eauto. }
    unfold nb_new_solutions.
    assert (S1 : exists r1, nb_solve av p (bs_sol s) (AMaxOfTwo nadir ideal (where_cls CImprove cl) (where_cls CImproveUntil cl)) lv None
                   (Some (cons_disc (bs_obj s) lv (where_cls CImprove cl) (where_cls CImproveUntil cl) (where_cls CAccept cl) (where_cls CImpairUntil cl))) = Ok r1).
    { destruct (rseq_map_total (fun f => rmap (fun r => forallb (fun x => nleb (nofZ 0) x) r)
                             (cons_row (bs_obj s) lv (where_cls CImprove cl) (where_cls CImproveUntil cl) (where_cls CAccept cl) (where_cls CImpairUntil cl) f)) objs) as (mk & Hmk).
      { intros f Hf. unfold is_matrix in W1. rewrite Forall_forall in W1. destruct (cons_row_total cl (bs_obj s) lv f) as (r & ->); try (rewrite Hcl; auto). cbn. eauto. }
      assert (HS := cons_disc_spec fin Hsub p ideal nadir HW s cl lv Hm Flv k objs decs fc mk eq_refl Hmk).
      destruct (PNimbus.Forall2_nth_l _ _ _ _ _ HS Hj) as (b & Hb & Eb).
      assert (Hh : honours cl (bs_obj s) lv (bs_obj s)) by (apply current_honours; auto; congruence).
      apply Eb in Hh. subst b.
      destruct (disc_total (AMaxOfTwo nadir ideal (where_cls CImprove cl) (where_cls CImproveUntil cl)) lv (cons_disc (bs_obj s) lv (where_cls CImprove cl) (where_cls CImproveUntil cl) (where_cls CAccept cl) (where_cls CImpairUntil cl)) mk j _ Hmk (eq_sym (F2len _ _ _ HS)) Hb Hj O2) as (i & x & g & E1 & E2 & E3).
      unfold nb_solve. rewrite E1. cbn [rbind]. rewrite (proj2 (at_ok _ _ _) E2), (proj2 (at_ok _ _ _) E3). cbn [rbind]. eauto. }
    destruct S1 as (r1 & ->). cbn [rbind].
    destruct (zbar_total cl (bs_obj s) lv Hcl O1 Hlv) as (z & Hz). cbn [p_nobj]. rewrite Hz.
    destruct (SF (AStom ideal) z) as (r2 & E2). destruct (SF (APoint nadir ideal) z) as (r3 & E3). destruct (SF (AGuess nadir ideal (where_cls CFree cl)) z) as (r4 & E4).
    destruct (1 <? m)%Z, (2 <? m)%Z, (3 <? m)%Z; cbn [rbind]; rewrite ?E2; cbn [rbind]; rewrite ?E3; cbn [rbind]; rewrite ?E4; cbn [rbind]; eauto.
  Qed.
End Succ.
