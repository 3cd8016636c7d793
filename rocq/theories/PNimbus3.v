(** * NIMBUS: the new solutions of a classification. *)
From Coq Require Import ZArith List Bool Lia.
From Verif Require Import Num Py Np Spec NpFacts MNimbus SNimbus PNimbus PNimbus2.
Import ListNotations.

Section New.
  Context {N : NumOps} (L : OrdLaws N).
  Notation vec := (list N).
  Notation mat := (list (list N)).
  (** A class of numbers on which the sign of a difference is exact. *)
  Variable fin : N -> Prop.
  Hypothesis Hsub : forall x y, fin x -> fin y -> nleb (nofZ 0) (nsub y x) = nleb x y.

  (** ** Slack vectors *)
  Lemma slack_iff (c f : vec) inds c1 f1 : Forall fin c -> Forall fin f -> take c inds = Ok c1 -> take f inds = Ok f1 ->
    (forallb (fun x => nleb (nofZ 0) x) (vsub c1 f1) = true <->
     forall i x, In i inds -> nth_error f i = Some x -> exists y, nth_error c i = Some y /\ nleb x y = true).
  Proof.
    intros Fc Ff Hc Hf. apply take_ok in Hc, Hf. revert f1 Hf. induction Hc as [|i y inds c1 Hy Hc IH]; intros f1 Hf; inversion Hf as [|? x ? f1' Hx Hf']; subst.
    - cbn. split; [intros _ i x []|auto].
    - unfold vsub in *. cbn [zipw forallb]. rewrite andb_true_iff, (IH _ Hf').
      assert (E : nleb (nofZ 0) (nsub y x) = nleb x y).
      { apply Hsub; [rewrite Forall_forall in Ff; apply Ff|rewrite Forall_forall in Fc; apply Fc]; eapply nth_error_In; eauto. }
      rewrite E. split.
      + intros [H1 H2] j x' [<-|Hj] Hx'; [|eauto]. exists y. split; auto. congruence.
      + intros H. split.
        * destruct (H i x (or_introl eq_refl) Hx) as (y' & Hy' & G). congruence.
        * intros j x' Hj. apply H. right. auto.
  Qed.

  Definition classes (cl : list cls) : list nat * list nat * list nat * list nat * list nat :=
    (where_cls CImprove cl, where_cls CImproveUntil cl, where_cls CAccept cl, where_cls CImpairUntil cl, where_cls CFree cl).

  Lemma cons_row_iff cl (cur lv f r : vec) : Forall fin cur -> Forall fin lv -> Forall fin f ->
    cons_row cur lv (where_cls CImprove cl) (where_cls CImproveUntil cl) (where_cls CAccept cl) (where_cls CImpairUntil cl) f = Ok r ->
    (forallb (fun x => nleb (nofZ 0) x) r = true <-> honours cl cur lv f).
  Proof.
    intros Fc Fl Ff H. unfold cons_row in H.
    apply rbind_ok in H as (c1 & C1 & H). apply rbind_ok in H as (f1 & F1 & H).
    apply rbind_ok in H as (c2 & C2 & H). apply rbind_ok in H as (f2 & F2 & H).
    apply rbind_ok in H as (c3 & C3 & H). apply rbind_ok in H as (f3 & F3 & H).
    apply rbind_ok in H as (c4 & C4 & H). apply rbind_ok in H as (f4 & F4 & H). injection H as <-.
    rewrite !forallb_app, !andb_true_iff.
    rewrite (slack_iff cur f _ c1 f1 Fc Ff C1 F1), (slack_iff cur f _ c2 f2 Fc Ff C2 F2),
            (slack_iff cur f _ c3 f3 Fc Ff C3 F3), (slack_iff lv f _ c4 f4 Fl Ff C4 F4).
    unfold honours. split.
    - intros (H1 & H2 & H3 & H4) i c x Hc Hx. destruct c; auto.
      + apply H1; auto. apply where_cls_in; auto.
      + apply H2; auto. apply where_cls_in; auto.
      + apply H3; auto. apply where_cls_in; auto.
      + apply H4; auto. apply where_cls_in; auto.
    - intros H. repeat split; intros i x Hi Hx; apply where_cls_in in Hi; exact (H i _ x Hi Hx).
  Qed.

  (** ** Discrete minimisation *)
  Definition nan_rows (av : @asf_val N) : Prop :=
    forall a row ref v, row <> [] -> Forall (fun x => nisnan x = true) row -> av a row ref = Ok v -> nisnan v = true.

  Lemma disc_free (av : @asf_val N) a ref (objs : mat) i : disc_minimize av a ref objs None = Ok i ->
    exists f v, nth_error objs i = Some f /\ av a f ref = Ok v /\ nisnan v = false /\
      forall j g w, nth_error objs j = Some g -> av a g ref = Ok w -> nisnan w = false -> nleb v w = true.
  Proof.
    unfold disc_minimize. cbn [rbind]. intros H. apply rbind_ok in H as (vals & Hv & H).
    apply rseq_map_ok in Hv. apply (npnanargmin_ok L) in H as (v & Hi & Hn & Hmin).
    destruct (Forall2_nth _ _ _ _ _ Hv Hi) as (f & Hf & Hav). exists f, v. repeat split; auto.
    intros j g w Hg Hw Hnw. destruct (PNimbus.Forall2_nth_l _ _ _ _ _ Hv Hg) as (w' & Hj & Hw').
    apply (Hmin j w); auto. congruence.
  Qed.

  Lemma disc_cons (av : @asf_val N) a ref (objs : mat) c m i : nan_rows av -> Forall (fun r => r <> []) objs ->
    c objs = Ok m -> length m = length objs -> disc_minimize av a ref objs (Some c) = Ok i ->
    exists f v, nth_error objs i = Some f /\ nth_error m i = Some true /\ av a f ref = Ok v /\ nisnan v = false /\
      forall j g w, nth_error objs j = Some g -> nth_error m j = Some true -> av a g ref = Ok w -> nisnan w = false -> nleb v w = true.
  Proof.
    intros HN HE Hc Hl. unfold disc_minimize. rewrite Hc. cbn [rbind]. intros H. apply rbind_ok in H as (vals & Hv & H).
    apply rseq_map_ok in Hv. apply (npnanargmin_ok L) in H as (v & Hi & Hn & Hmin).
    assert (Z : forall (m : list bool) (objs : mat) j (b : bool) row, length m = length objs -> nth_error m j = Some b -> nth_error objs j = Some row ->
       nth_error (zipw (fun (ok : bool) row => if ok then row else map (fun _ => nnan) row) m objs) j = Some (if b then row else map (fun _ => nnan) row)).
    { clear. induction m as [|b m IH]; intros [|r objs] [|j] b' row Hl Hb Hr; cbn in *; try discriminate; auto. injection Hb as <-. injection Hr as <-. reflexivity. }
    destruct (Forall2_nth _ _ _ _ _ Hv Hi) as (f' & Hf' & Hav).
    assert (Li : i < length objs).
    { rewrite <- (Nat.min_id (length objs)). rewrite <- Hl at 1. rewrite <- zipw_length with (f := fun (ok : bool) row => if ok then row else map (fun _ => @nnan N) row).
      apply nth_error_Some. congruence. }
    destruct (nth_error objs i) as [f|] eqn:Ef; [|apply nth_error_None in Ef; lia].
    destruct (nth_error m i) as [b|] eqn:Em; [|apply nth_error_None in Em; lia].
    rewrite (Z _ _ _ _ _ Hl Em Ef) in Hf'. injection Hf' as <-.
    destruct b.
    - exists f, v. repeat split; auto. intros j g w Hg Hm Hw Hnw.
      destruct (PNimbus.Forall2_nth_l _ _ _ _ _ Hv (Z _ _ _ _ _ Hl Hm Hg)) as (w' & Hj & Hw').
      apply (Hmin j w); auto. congruence.
    - exfalso. assert (nisnan v = true); [|congruence].
      apply (HN _ _ _ _) in Hav; auto.
      + rewrite Forall_forall in HE. assert (f <> []) by (apply HE; eapply nth_error_In; eauto). destruct f; [congruence|discriminate].
      + apply Forall_map. apply Forall_forall. intros x _. apply (ol_nan N L).
  Qed.

  (** ** z_bar *)
  Lemma put_spec inds : forall (z src z' : vec), put z inds src = Ok z' -> length z' = length z /\
    forall i, i < length z -> nth_error z' i = if existsb (Nat.eqb i) inds then nth_error src i else nth_error z i.
  Proof.
    induction inds as [|k inds IH]; intros z src z' H; cbn [put] in H.
    - injection H as <-. auto.
    - apply rbind_ok in H as (v & Hv & H). apply rbind_ok in H as (z1 & Hz & H). apply at_ok in Hv.
      apply set_ok_inv in Hz. destruct (IH _ _ _ H) as (H1 & H2). pose proof (set_nth_length _ _ _ _ Hz) as Hl.
      split; [congruence|]. intros i Hi. rewrite H2 by lia. cbn [existsb].
      destruct (existsb (Nat.eqb i) inds); [rewrite orb_true_r; auto|]. rewrite orb_false_r.
      destruct (Nat.eqb_spec i k) as [->|E].
      + rewrite (set_nth_get_same _ _ _ _ Hz). auto.
      + eapply set_nth_get_other; eauto.
  Qed.
  Lemma where_existsb c cl i : existsb (Nat.eqb i) (where_cls c cl) = match nth_error cl i with Some c' => cls_eqb c c' | None => false end.
  Proof.
    destruct (existsb (Nat.eqb i) (where_cls c cl)) eqn:E.
    - apply existsb_exists in E as (j & Hj & E). apply Nat.eqb_eq in E. subst. apply where_cls_in in Hj. rewrite Hj. symmetry. apply cls_eqb_eq. auto.
    - destruct (nth_error cl i) as [c'|] eqn:Ec; auto. destruct (cls_eqb c c') eqn:Ecc; auto. apply cls_eqb_eq in Ecc. subst.
      apply where_cls_in in Ec.
      assert (existsb (Nat.eqb i) (where_cls c' cl) = true); [|congruence]. apply existsb_exists. exists i. split; auto. apply Nat.eqb_refl.
  Qed.
  Lemma zbar_implied k cl (ideal nadir cur lv z : vec) :
    nb_zbar k ideal nadir cur lv (where_cls CImprove cl) (where_cls CImproveUntil cl) (where_cls CAccept cl) (where_cls CImpairUntil cl) (where_cls CFree cl) = Ok z ->
    implied_point k cl ideal nadir cur lv z.
  Proof.
    unfold nb_zbar. intros H. apply rbind_ok in H as (z1 & H1 & H). apply rbind_ok in H as (z2 & H2 & H).
    apply rbind_ok in H as (z3 & H3 & H). apply rbind_ok in H as (z4 & H4 & H5).
    apply put_spec in H1 as (L1 & P1). apply put_spec in H2 as (L2 & P2). apply put_spec in H3 as (L3 & P3).
    apply put_spec in H4 as (L4 & P4). apply put_spec in H5 as (L5 & P5). rewrite repeat_length in *.
    split; [congruence|]. intros i Hi. rewrite P5, P4, P3, P2, P1 by (rewrite ?repeat_length; lia). rewrite !where_existsb.
    assert (R0 : nth_error (repeat (nofZ 0 : N) k) i = Some (nofZ 0)) by (apply nth_error_repeat; auto).
    destruct (nth_error cl i) as [[]|]; cbn; auto.
  Qed.
End New.
