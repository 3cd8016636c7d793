(** * NIMBUS on data: which accepted answers are carried out. *)
From Coq Require Import ZArith List Bool Lia.
From Verif Require Import Num Py Np Spec NpFacts MNimbus SNimbus PNimbus PNimbus2 PNimbus3 PNimbus4 PNimbus5 PNimbus7 MNimbusPlot SNimbus2.
Import ListNotations.

Section Done.
  Context {N : NumOps} (L : OrdLaws N).
  Notation vec := (list N).
  Notation mat := (list (list N)).
  Variable fin : N -> Prop.
  Hypothesis Hsub : forall x y, fin x -> fin y -> nleb (nofZ 0) (nsub y x) = nleb x y.
  Variables (av : @asf_val N) (k dn : nat) (objs decs : mat) (fc : vec -> nat) (ideal nadir : vec).
  Notation p := (PDisc k objs decs fc).
  Hypothesis HW : nb_wf fin p ideal nadir.
  Hypothesis HD : is_matrix dn decs.
  Hypothesis HC : forall x, fc x < length objs.
  Hypothesis AT : forall a row ref, exists v, av a row ref = Ok v.
  Hypothesis AF : forall a row ref v, Forall fin row -> av a row ref = Ok v -> nisnan v = false.
  Hypothesis AN : nan_rows av.

  Definition c1 (s : nb_state N) cl (lv : vec) := cons_disc (bs_obj s) lv (where_cls CImprove cl) (where_cls CImproveUntil cl) (where_cls CAccept cl) (where_cls CImpairUntil cl).

  Lemma mask_total s cl lv : matches p (bs_sol s) (bs_obj s) -> length cl = k -> length lv = k -> Forall fin lv ->
    exists mk, c1 s cl lv objs = Ok mk /\ Forall2 (fun f b => b = true <-> honours cl (bs_obj s) lv f) objs mk.
  Proof.
    intros Hm Hcl Hlv Flv. destruct (obj_wf fin _ _ _ HW _ _ Hm) as [O1 O2]. cbn in O1.
    pose proof HW as HW'. destruct HW' as (K & _ & _ & W1 & W2 & W3).
    destruct (rseq_map_total (fun f => rmap (fun r => forallb (fun x => nleb (nofZ 0) x) r)
                             (cons_row (bs_obj s) lv (where_cls CImprove cl) (where_cls CImproveUntil cl) (where_cls CAccept cl) (where_cls CImpairUntil cl) f)) objs) as (mk & Hmk).
    { intros f Hf. unfold is_matrix in W1. rewrite Forall_forall in W1. destruct (cons_row_total cl (bs_obj s) lv f) as (r & ->); try (rewrite Hcl; auto). cbn. eauto. }
    exists mk. split; [exact Hmk|]. exact (cons_disc_spec fin Hsub p ideal nadir HW s cl lv Hm Flv k objs decs fc mk eq_refl Hmk).
  Qed.

  Lemma new_solutions_done s cl lv m g : matches p (bs_sol s) (bs_obj s) -> length cl = k -> length lv = k -> Forall fin lv ->
    In g objs -> honours cl (bs_obj s) lv g ->
    exists q, nb_new_solutions av p ideal nadir s m lv (where_cls CImprove cl) (where_cls CImproveUntil cl) (where_cls CAccept cl) (where_cls CImpairUntil cl) (where_cls CFree cl) = Ok q.
  Proof.
    intros Hm Hcl Hlv Flv Hg Hh. destruct (obj_wf fin _ _ _ HW _ _ Hm) as [O1 O2]. cbn in O1.
    destruct (mask_total s cl lv Hm Hcl Hlv Flv) as (mk & Hmk & HS).
    apply In_nth_error in Hg as (j & Hj).
    assert (HE : objs <> []) by (intros E; rewrite E in Hj; destruct j; discriminate).
    assert (SF : forall a z, exists r, nb_solve av p (bs_sol s) a z None None = Ok r).
    { intros a z. destruct (disc_total_free L fin av k objs decs fc ideal nadir HW AT AF a z HE) as (i & x & g' & E1 & E2 & E3). unfold nb_solve. rewrite E1. cbn [rbind]. rewrite (proj2 (at_ok _ _ _) E2), (proj2 (at_ok _ _ _) E3). cbn [rbind]. eauto. }
    unfold nb_new_solutions.
    assert (S1 : exists r1, nb_solve av p (bs_sol s) (AMaxOfTwo nadir ideal (where_cls CImprove cl) (where_cls CImproveUntil cl)) lv None
                   (Some (c1 s cl lv)) = Ok r1).
    { destruct (PNimbus.Forall2_nth_l _ _ _ _ _ HS Hj) as (b & Hb & Eb). apply Eb in Hh. subst b.
      assert (Fg : Forall fin g). { destruct HW as (_ & _ & _ & _ & W2 & _). rewrite Forall_forall in W2. apply W2. eapply nth_error_In; eauto. }
      destruct (disc_total L fin av k objs decs fc ideal nadir HW AT AF (AMaxOfTwo nadir ideal (where_cls CImprove cl) (where_cls CImproveUntil cl)) lv (c1 s cl lv) mk j g Hmk (eq_sym (F2len _ _ _ HS)) Hb Hj Fg) as (i & x & g' & E1 & E2 & E3).
      unfold nb_solve. rewrite E1. cbn [rbind]. rewrite (proj2 (at_ok _ _ _) E2), (proj2 (at_ok _ _ _) E3). cbn [rbind]. eauto. }
    destruct S1 as (r1 & S1). unfold c1 in S1. rewrite S1. cbn [rbind].
    destruct (zbar_total fin k objs decs fc ideal nadir HW cl (bs_obj s) lv Hcl O1 Hlv) as (z & Hz). cbn [p_nobj]. rewrite Hz.
    destruct (SF (AStom ideal) z) as (r2 & E2). destruct (SF (APoint nadir ideal) z) as (r3 & E3). destruct (SF (AGuess nadir ideal (where_cls CFree cl)) z) as (r4 & E4).
    destruct (1 <? m)%Z, (2 <? m)%Z, (3 <? m)%Z; cbn [rbind]; rewrite ?E2; cbn [rbind]; rewrite ?E3; cbn [rbind]; rewrite ?E4; cbn [rbind]; eauto.
  Qed.

  Lemma new_solutions_refused s cl lv m : matches p (bs_sol s) (bs_obj s) -> length cl = k -> length lv = k -> Forall fin lv ->
    (forall g, In g objs -> ~ honours cl (bs_obj s) lv g) ->
    nb_new_solutions av p ideal nadir s m lv (where_cls CImprove cl) (where_cls CImproveUntil cl) (where_cls CAccept cl) (where_cls CImpairUntil cl) (where_cls CFree cl) = Raise ValueErr.
  Proof.
    intros Hm Hcl Hlv Flv Hno. destruct (mask_total s cl lv Hm Hcl Hlv Flv) as (mk & Hmk & HS).
    assert (E : disc_minimize av (AMaxOfTwo nadir ideal (where_cls CImprove cl) (where_cls CImproveUntil cl)) lv objs (Some (c1 s cl lv)) = Raise ValueErr).
    { unfold disc_minimize. rewrite Hmk. cbn [rbind]. set (rows := zipw _ mk objs).
      destruct (rseq_map_total (fun row => av (AMaxOfTwo nadir ideal (where_cls CImprove cl) (where_cls CImproveUntil cl)) row lv) rows) as (vals & Hv); [intros; apply AT|].
      rewrite Hv. cbn [rbind].
      assert (FR : Forall (fun row : vec => row <> [] /\ Forall (fun x => nisnan x = true) row) rows).
      { pose proof HW as HW'. destruct HW' as (K & _ & _ & W1 & _). cbn in K. subst rows. clear Hmk Hv.
        revert W1 Hno HS. clear - K L. revert mk. induction objs as [|f os IH]; intros mk W1 Hno HS; inversion HS as [|? b ? mk' Hb HS']; subst; cbn [zipw]; constructor.
        - inversion W1; subst. assert (b = false) as -> by (destruct b; auto; exfalso; apply (Hno f (or_introl eq_refl)); tauto).
          split; [destruct f; [cbn in K; lia|discriminate]|]. apply Forall_forall. intros x Hx. apply in_map_iff in Hx as (? & <- & _). apply (ol_nan N L).
        - apply IH; [inversion W1; auto|intros g Hg; apply Hno; right; auto|auto]. }
      apply rseq_map_ok in Hv.
      assert (FV : Forall (fun y => nisnan y = true) vals).
      { clear - FR Hv AN. induction Hv as [|row v rows vals Hrv Hv IH]; constructor; inversion FR as [|? ? [F1 F2] FR']; subst; auto. eapply AN; eauto. }
      apply (npnanargmin_raise L) in FV as (e & He). rewrite He. f_equal. eapply npnanargmin_err; eauto. }
    unfold nb_new_solutions, nb_solve. unfold c1 in E. rewrite E. reflexivity.
  Qed.

  Lemma validate_inter_range os (d : nb_dict N) ix : nb_validate_inter os d = Ok tt -> bd_indices d = Some ix ->
    Forall (fun z => (0 <= z < Z.of_nat (length os))%Z) ix.
  Proof.
    unfold nb_validate_inter. intros H Ei. rewrite Ei in H. destruct (bd_ndes d) as [nd|]; [|discriminate].
    apply rbind_ok in H as (lt & _ & H). destruct lt; [discriminate|].
    destruct (Nat.ltb 0 (length ix) && py_eq nd 0); [discriminate|]. apply rbind_ok in H as (gt & _ & H). destruct gt; [discriminate|].
    destruct ix as [|z ix]; [constructor|]. cbn [length Nat.eqb] in H.
    destruct ((Z.of_nat (length os) <=? zmax (z :: ix))%Z || (zmin (z :: ix) <? 0)%Z) eqn:Ec; [discriminate|].
    apply (zrange (z :: ix) (Z.of_nat (length os))) in Ec; [exact Ec|discriminate].
  Qed.

  Lemma between_total (a b : vec) n : length a = length b -> exists pts, nb_between a b n = Ok pts.
  Proof.
    intros H. unfold nb_between. rewrite (bcast2_eq _ _ _ H). cbn [rbind]. apply rseq_map_total. intros i _.
    rewrite bcast2_eq; [eauto|]. unfold vscale. rewrite !map_length, zipw_length. lia.
  Qed.

  Lemma handle_inter_done s sols os d ix v n : Forall2 (matches p) sols os -> nb_validate_inter os d = Ok tt ->
    bd_indices d = Some ix -> bd_ndes d = Some v -> py_toint v = Ok n -> length ix <> 1 ->
    exists q, nb_handle_inter av p ideal nadir s sols os d = Ok q.
  Proof.
    intros HF HV Ei Ev En H1. pose proof (validate_inter_range os d ix HV Ei) as Hr.
    rewrite <- (F2len _ _ _ HF) in Hr. unfold nb_handle_inter. rewrite Ei. cbn [key rbind].
    destruct ix as [|z1 [|z2 ix]]; cbn [length Nat.ltb Nat.leb]; [eauto|cbn in H1; lia|].
    destruct (ztake_total sols _ Hr) as (sel & Hs). rewrite Hs. cbn [rbind]. rewrite Ev. cbn [key rbind]. rewrite En. cbn [rbind].
    apply (ztake_ok _ _ _ Hr) in Hs. inversion Hs as [|? x1 ? sel1 [_ Hx1] Hs1]; subst. inversion Hs1 as [|? x2 ? sel2 [_ Hx2] _]; subst.
    assert (LD : forall i x, nth_error sols i = Some x -> length x = dn).
    { intros i x Hx. destruct (PNimbus.Forall2_nth_l _ _ _ _ _ HF Hx) as (f & _ & (j & Hj & _)). unfold is_matrix in HD. rewrite Forall_forall in HD. apply HD. eapply nth_error_In; eauto. }
    unfold nb_intermediate. cbn [at_ nth_error rbind].
    destruct (between_total x1 x2 (Z.to_nat n)) as (pts & Hp); [rewrite (LD _ _ Hx1), (LD _ _ Hx2); reflexivity|]. rewrite Hp. cbn [rbind].
    match goal with |- context [rseq (map ?f pts)] => destruct (rseq_map_total f pts) as (rs & ->) end; [|cbn [rbind]; eauto].
    intros pt _. pose proof (HC pt) as Hc. destruct (nth_error objs (fc pt)) as [ref|] eqn:Er; [|apply nth_error_None in Er; lia].
    rewrite (proj2 (at_ok _ _ _) Er). cbn [rbind].
    destruct (disc_total_free L fin av k objs decs fc ideal nadir HW AT AF (APoint nadir ideal) ref) as (i & x & g & E1 & E2 & E3); [intros ->; cbn in Hc; lia|].
    rewrite E1. cbn [rbind]. rewrite (proj2 (at_ok _ _ _) E2), (proj2 (at_ok _ _ _) E3). cbn [rbind]. eauto.
  Qed.
  Lemma handle_inter_refused s sols os d z v n : Forall2 (matches p) sols os -> nb_validate_inter os d = Ok tt ->
    bd_indices d = Some [z] -> bd_ndes d = Some v -> py_toint v = Ok n ->
    nb_handle_inter av p ideal nadir s sols os d = Raise IndexErr.
  Proof.
    intros HF HV Ei Ev En. pose proof (validate_inter_range os d _ HV Ei) as Hr. inversion Hr as [|? ? Hz _]; subst.
    rewrite <- (F2len _ _ _ HF) in Hz. destruct (nth_error sols (Z.to_nat z)) as [x|] eqn:Ex; [|apply nth_error_None in Ex; lia].
    exact (handle_inter_one av p ideal nadir s sols os d z v n x Ei (proj1 Hz) Ex Ev En).
  Qed.
End Done.
