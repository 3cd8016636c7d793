(** * NIMBUS: validation of classifications and of intermediate requests; the points between two solutions. *)
From Coq Require Import ZArith List Bool Lia Reals Lra.
From Verif Require Import Num NumXR Py Np Spec NpFacts XRFacts MNimbus SNimbus PNimbus PNimbus2 PNimbus3 PNimbus4.
Import ListNotations.

Section Val.
  Context {N : NumOps} (L : OrdLaws N).
  Notation vec := (list N).
  Notation mat := (list (list N)).

  Lemma all_ge_at (lv id : vec) inds l1 l2 : take lv inds = Ok l1 -> take id inds = Ok l2 ->
    (all_ge l1 l2 = true <-> forall i, In i inds -> exists a u, nth_error id i = Some a /\ nth_error lv i = Some u /\ nleb a u = true).
  Proof.
    intros H1 H2. apply take_ok in H1, H2. unfold all_ge. revert l2 H2. induction H1 as [|i u inds l1 Hu H1 IH]; intros l2 H2; inversion H2 as [|? a ? l2' Ha H2']; subst; cbn.
    - split; [intros _ i []|auto].
    - rewrite andb_true_iff, (IH _ H2'). split.
      + intros [G1 G2] j [<-|Hj]; eauto.
      + intros G. split; [|intros j Hj; apply G; auto]. destruct (G i (or_introl eq_refl)) as (a' & u' & Ea & Eu & G'). congruence.
  Qed.
  Lemma all_le_at (lv nd : vec) inds l1 l2 : take lv inds = Ok l1 -> take nd inds = Ok l2 ->
    (all_le l1 l2 = true <-> forall i, In i inds -> exists b u, nth_error nd i = Some b /\ nth_error lv i = Some u /\ nleb u b = true).
  Proof.
    intros H1 H2. apply take_ok in H1, H2. unfold all_le. revert l2 H2. induction H1 as [|i u inds l1 Hu H1 IH]; intros l2 H2; inversion H2 as [|? a ? l2' Ha H2']; subst; cbn.
    - split; [intros _ i []|auto].
    - rewrite andb_true_iff, (IH _ H2'). split.
      + intros [G1 G2] j [<-|Hj]; eauto.
      + intros G. split; [|intros j Hj; apply G; auto]. destruct (G i (or_introl eq_refl)) as (a' & u' & Ea & Eu & G'). congruence.
  Qed.
  Definition between_at (lv id nd : vec) (i : nat) : Prop :=
    exists a u b, nth_error id i = Some a /\ nth_error lv i = Some u /\ nth_error nd i = Some b /\ nleb a u = true /\ nleb u b = true.
  Lemma levels_bad_ok (lv id nd : vec) inds : levels_bad lv id nd inds = Ok false -> forall i, In i inds -> between_at lv id nd i.
  Proof.
    unfold levels_bad. intros H i Hi. apply rbind_ok in H as (l1 & H1 & H). apply rbind_ok in H as (l2 & H2 & H).
    destruct (all_ge l1 l2) eqn:E; cbn [negb] in H; [|discriminate]. apply rbind_ok in H as (l3 & H3 & H). injection H as H. apply negb_false_iff in H.
    destruct (proj1 (all_ge_at _ _ _ _ _ H1 H2) E _ Hi) as (a & u & Ea & Eu & G1). destruct (proj1 (all_le_at _ _ _ _ _ H1 H3) H _ Hi) as (b & u' & Eb & Eu' & G2).
    exists a, u, b. repeat split; auto. congruence.
  Qed.
  Lemma levels_bad_conv (lv id nd : vec) inds : (forall i, In i inds -> between_at lv id nd i) -> levels_bad lv id nd inds = Ok false.
  Proof.
    intros H.
    assert (T : forall m : vec, (forall i, In i inds -> exists x, nth_error m i = Some x) -> exists v, take m inds = Ok v).
    { intros m Hm. apply take_lt. apply Forall_forall. intros i Hi. destruct (Hm i Hi) as (x & Hx). apply nth_error_Some. congruence. }
    destruct (T lv) as (l1 & H1); [intros i Hi; destruct (H i Hi) as (a & u & b & ? & ? & ? & _); eauto|].
    destruct (T id) as (l2 & H2); [intros i Hi; destruct (H i Hi) as (a & u & b & ? & ? & ? & _); eauto|].
    destruct (T nd) as (l3 & H3); [intros i Hi; destruct (H i Hi) as (a & u & b & ? & ? & ? & _); eauto|].
    unfold levels_bad. rewrite H1, H2. cbn [rbind].
    rewrite (proj2 (all_ge_at _ _ _ _ _ H1 H2)); [|intros i Hi; destruct (H i Hi) as (a & u & b & ? & ? & ? & ? & ?); eauto].
    cbn [negb]. rewrite H3. cbn [rbind]. rewrite (proj2 (all_le_at _ _ _ _ _ H1 H3)); [reflexivity|].
    intros i Hi; destruct (H i Hi) as (a & u & b & ? & ? & ? & ? & ?); eauto.
  Qed.

  Lemma guard_ok (lv id nd : vec) inds b : (if Nat.ltb 0 (length inds) then levels_bad lv id nd inds else Ok false) = Ok b ->
    b = false -> forall i, In i inds -> between_at lv id nd i.
  Proof. intros H -> i Hi. destruct inds as [|x inds]; [destruct Hi|]. cbn [length Nat.ltb Nat.leb] in H. exact (levels_bad_ok _ _ _ _ H i Hi). Qed.
  Lemma guard_conv (lv id nd : vec) inds : (forall i, In i inds -> between_at lv id nd i) -> (if Nat.ltb 0 (length inds) then levels_bad lv id nd inds else Ok false) = Ok false.
  Proof. intros H. destruct (Nat.ltb 0 (length inds)); auto. apply levels_bad_conv; auto. Qed.

  (** The exact condition, whatever the length of the classification. *)
  Lemma validate_cls_iff (p : nb_problem N) (ideal nadir : vec) (d : nb_dict N) : nb_validate_cls p ideal nadir d = Ok tt <->
    exists cl lv ns, bd_cls d = Some cl /\ bd_levels d = Some lv /\ bd_nsol d = Some ns /\
      ~ In CBad cl /\ length lv = p_nobj p /\ length lv <> 1 /\
      (forall i, nth_error cl i = Some CImproveUntil \/ nth_error cl i = Some CImpairUntil -> between_at lv ideal nadir i) /\
      py_gt ns 4 = Ok false /\ py_lt ns 1 = Ok false.
  Proof.
    unfold nb_validate_cls. split.
    - destruct (bd_cls d) as [cl|]; [|discriminate]. destruct (bd_levels d) as [lv|]; [|discriminate]. destruct (bd_nsol d) as [ns|]; [|discriminate].
      destruct (forallb (fun c => negb (cls_eqb c CBad)) cl) eqn:Ef; cbn [negb]; [|discriminate].
      destruct (Nat.eqb_spec (length lv) 1) as [E1|E1]; [discriminate|].
      destruct (Nat.eqb_spec (length lv) (p_nobj p)) as [E2|E2]; cbn [negb]; [|discriminate].
      intros H. apply rbind_ok in H as (b1 & Hb1 & H). destruct b1; [discriminate|]. apply rbind_ok in H as (b2 & Hb2 & H). destruct b2; [discriminate|].
      apply rbind_ok in H as (g & Hg & H). destruct g; [discriminate|]. apply rbind_ok in H as (l & Hl & H). destruct l; [discriminate|].
      exists cl, lv, ns. repeat (split; [reflexivity|]). split.
      { intros Hin. rewrite forallb_forall in Ef. specialize (Ef _ Hin). discriminate. }
      repeat (split; [assumption|]). split; [|auto]. intros i [Hi|Hi]; apply where_cls_in in Hi.
      + eapply (guard_ok _ _ _ _ _ Hb1); auto.
      + eapply (guard_ok _ _ _ _ _ Hb2); auto.
    - intros (cl & lv & ns & -> & -> & -> & HB & Hl & H1 & Hbt & Hg & Hlt).
      replace (forallb (fun c => negb (cls_eqb c CBad)) cl) with true.
      2:{ symmetry. apply forallb_forall. intros c Hc. destruct c; cbn; auto. }
      cbn [negb]. rewrite (proj2 (Nat.eqb_neq _ _) H1). rewrite (proj2 (Nat.eqb_eq _ _) Hl). cbn [negb].
      rewrite !guard_conv; [|intros i Hi; apply where_cls_in in Hi; auto|intros i Hi; apply where_cls_in in Hi; auto].
      cbn [rbind]. rewrite Hg. cbn [rbind]. rewrite Hlt. reflexivity.
  Qed.

  (** ** Intermediate request *)
  Lemma validate_inter_ok (objs : mat) (d : nb_dict N) ix nd : bd_indices d = Some ix -> bd_ndes d = Some (VInt nd) ->
    (nb_validate_inter objs d = Ok tt <->
     (ix = [] /\ nd = 0%Z) \/ (ix <> [] /\ (1 <= nd)%Z /\ Forall (fun z => (0 <= z < Z.of_nat (length objs))%Z) ix)).
  Proof.
    intros Hi Hn. unfold nb_validate_inter. rewrite Hi, Hn. cbn [py_lt py_gt py_eq rbind].
    destruct (Z.ltb_spec nd 0) as [Z0|Z0]; [split; [discriminate|intros [[_ ->]|(_ & H & _)]; lia]|].
    destruct ix as [|x ix].
    - cbn [length Nat.ltb Nat.leb andb Nat.eqb rbind]. destruct (Z.ltb_spec 0 nd) as [Z1|Z1]; cbn.
      + split; [discriminate|]. intros [[_ ->]|[H _]]; [lia|congruence].
      + split; auto. intros _. left. split; auto. lia.
    - cbn [length Nat.ltb Nat.leb andb Nat.eqb rbind]. destruct (Z.eqb_spec nd 0) as [->|Z1].
      + split; [discriminate|]. intros [[H _]|(_ & H & _)]; [discriminate|lia].
      + destruct ((Z.of_nat (length objs) <=? zmax (x :: ix))%Z || (zmin (x :: ix) <? 0)%Z) eqn:E.
        * split; [discriminate|]. intros [[H _]|(_ & _ & H)]; [discriminate|]. apply zrange in H; [|discriminate]. congruence.
        * split; auto. intros _. right. split; [discriminate|]. split; [lia|]. apply zrange; [discriminate|auto].
  Qed.
End Val.

(** ** The points between two solutions, exactly *)
Local Open Scope R_scope.
Definition mid (n : nat) (a b : list R) (i : nat) : list R := rcomb (INR i / INR (n + 2)) a (1 - INR i / INR (n + 2)) b.

Lemma rcomb_step (a b : list R) t nm : length a = length b -> nm <> 0 ->
  zipw Rplus b (map (Rmult (t * nm)) (map (fun x => x / nm) (rsub a b))) = rcomb t a (1 - t) b.
Proof.
  unfold rsub. intros H Hn. revert b H. induction a as [|x a IH]; intros [|y b] H; cbn in *; try discriminate; auto.
  f_equal; [field; auto|]. apply IH. lia.
Qed.

Lemma nb_between_xr (a b : list R) n : length a = length b -> a <> b ->
  nb_between (xv a) (xv b : list XR) n = Ok (map (fun i => xv (mid n a b i)) (seq 1 n)).
Proof.
  intros Hl Hne. unfold nb_between. rewrite bsub_xr by auto. cbn [rbind]. rewrite vnorm_sub.
  assert (HD : rdist a b <> 0) by (intros E; apply Hne; apply rdist_0; auto).
  set (D := rdist a b) in *.
  assert (Hdir : map (fun x : XR => ndiv x (Fin D : XR)) (xv (rsub a b)) = xv (map (fun x => x / D) (rsub a b))).
  { unfold xv. rewrite !map_map. apply map_ext. intros x. apply xdiv_fin. auto. }
  rewrite Hdir.
  assert (Hn2 : IZR (2 + Z.of_nat n) <> 0) by (apply not_0_IZR; lia).
  assert (Hstep : @ndiv XR (Fin D) (nofZ (2 + Z.of_nat n)) = (Fin (D / IZR (2 + Z.of_nat n)) : XR)) by (apply xdiv_fin; auto).
  rewrite Hstep.
  rewrite <- map_rseq_ok. apply rseq_map_ext. intros i Hi.
  assert (E1 : vscale (nmul (nofZ (Z.of_nat i)) (Fin (D / IZR (2 + Z.of_nat n)) : XR)) (xv (map (fun x => x / D) (rsub a b)))
     = xv (map (Rmult ((INR i / INR (n + 2)) * D)) (map (fun x => x / D) (rsub a b)))).
  { unfold vscale, xv. rewrite !map_map. apply map_ext. intros x. cbn [nmul nofZ XR]. cbn [xmul]. f_equal. f_equal.
    rewrite <- INR_IZR_INZ. rewrite !INR_IZR_INZ. replace (Z.of_nat (n + 2)) with (2 + Z.of_nat n)%Z by lia. field. auto. }
  rewrite E1. rewrite bcast2_eq.
  2:{ rewrite !xv_length, !map_length. unfold rsub. rewrite zipw_length. lia. }
  f_equal. unfold mid. rewrite <- (rcomb_step a b (INR i / INR (n + 2)) D Hl HD).
  unfold xv. generalize (map (Rmult (INR i / INR (n + 2) * D)) (map (fun x => x / D) (rsub a b))). clear.
  induction b as [|y b IH]; intros [|x l]; cbn [map zipw]; auto. f_equal. apply IH.
Qed.

Lemma mid_dist n a b i j : length a = length b -> rdist (mid n a b i) (mid n a b j) = Rabs (INR i - INR j) / INR (n + 2) * rdist a b.
Proof.
  intros H. unfold mid, rdist.
  assert (Hn : 0 < INR (n + 2)) by (apply lt_0_INR; lia).
  assert (E : rsqdist (rcomb (INR i / INR (n + 2)) a (1 - INR i / INR (n + 2)) b) (rcomb (INR j / INR (n + 2)) a (1 - INR j / INR (n + 2)) b)
     = (Rabs (INR i - INR j) / INR (n + 2)) * (Rabs (INR i - INR j) / INR (n + 2)) * rsqdist a b).
  { assert (Ha : (Rabs (INR i - INR j) / INR (n + 2)) * (Rabs (INR i - INR j) / INR (n + 2)) = ((INR i - INR j) / INR (n + 2)) * ((INR i - INR j) / INR (n + 2))).
    { replace (Rabs (INR i - INR j) / INR (n + 2) * (Rabs (INR i - INR j) / INR (n + 2))) with ((Rabs (INR i - INR j) * Rabs (INR i - INR j)) / (INR (n + 2) * INR (n + 2))) by (field; lra).
      rewrite <- Rabs_mult. rewrite Rabs_right by (apply Rle_ge; apply Rle_0_sqr). field. lra. }
    rewrite Ha. revert b H. induction a as [|x a IH]; intros [|y b] H; cbn in *; try discriminate; [ring|]. rewrite IH by lia. field. lra. }
  rewrite E, sqrt_mult_alt.
  - rewrite sqrt_square; auto. apply Rmult_le_pos; [apply Rabs_pos|]. left. apply Rinv_0_lt_compat. auto.
  - apply Rle_0_sqr.
Qed.
Lemma mid_0 n a b : length a = length b -> mid n a b 0 = b.
Proof.
  intros H. unfold mid. replace (INR 0 / INR (n + 2)) with 0 by (cbn; unfold Rdiv; ring). replace (1 - 0) with 1 by ring. apply rcomb_1_0. auto.
Qed.
Lemma mid_end n a b : length a = length b -> mid n a b (n + 2) = a.
Proof.
  intros H. unfold mid. assert (INR (n + 2) <> 0) by (apply not_0_INR; lia). replace (INR (n + 2) / INR (n + 2)) with 1 by (field; auto).
  replace (1 - 1) with 0 by ring. revert b H. induction a as [|x a IH]; intros [|y b] H'; cbn in *; try discriminate; auto. f_equal; [ring|auto].
Qed.
