(** * NIMBUS: the documented achievement functions prefer better rows (exact arithmetic). *)
From Coq Require Import ZArith List Bool Lia Reals Lra.
From Verif Require Import Num NumXR Py Np Spec NpFacts XRFacts PAsf MNimbus SNimbus PNimbus PNimbus2 PNimbus3 PNimbus4 PNimbus6 PNimbus7 SNimbus3 MNimbusAsf.
Import ListNotations.
Local Open Scope R_scope.

(** ** Pairs of exact vectors, the first one smaller in every component *)
Definition Rel (l1 l2 : list XR) : Prop := exists a b, l1 = xv a /\ l2 = xv b /\ Forall2 Rlt a b.
Definition Pos (w : list XR) : Prop := exists c, w = xv c /\ Forall (fun x => 0 < x) c.
Definition Fins (w : list XR) : Prop := exists c : list R, w = xv c.

Lemma F2nth {A B} (P : A -> B -> Prop) l m i x y : Forall2 P l m -> nth_error l i = Some x -> nth_error m i = Some y -> P x y.
Proof. intros H. revert i. induction H; intros [|i]; cbn; try discriminate; eauto. congruence. Qed.
Lemma zipw_nth_all {A B C} (f : A -> B -> C) a : forall b i,
  nth_error (zipw f a b) i = match nth_error a i, nth_error b i with Some x, Some y => Some (f x y) | _, _ => None end.
Proof. induction a as [|x a IH]; intros [|y b] [|i]; cbn; auto. destruct (nth_error a i); auto. Qed.
Lemma Rel_nil : Rel [] [].
Proof. exists [], []. repeat split; constructor. Qed.
Lemma Rel_app a b c d : Rel a b -> Rel c d -> Rel (a ++ c) (b ++ d).
Proof.
  intros (a' & b' & -> & -> & H) (c' & d' & -> & -> & G). exists (a' ++ c'), (b' ++ d'). unfold xv. rewrite !map_app. repeat split; auto. apply Forall2_app; auto.
Qed.
Lemma Rel_len a b : Rel a b -> length a = length b.
Proof. intros (a' & b' & -> & -> & H). rewrite !xv_length. eapply PNimbus2.F2len; eauto. Qed.
Lemma zipR_lt (h : R -> R -> R) (P : R -> Prop) (a b c : list R) : (forall x y z, P z -> x < y -> h x z < h y z) -> Forall P c ->
  Forall2 Rlt a b -> Forall2 Rlt (zipw h a c) (zipw h b c).
Proof. intros Hh F H. revert c F. induction H; intros [|z c] F; cbn; constructor; inversion F; subst; auto. Qed.
Lemma Rel_sub a b z : Rel a b -> Fins z -> Rel (zipw (@nsub XR) a z) (zipw (@nsub XR) b z).
Proof.
  intros (a' & b' & -> & -> & H) (c & ->). rewrite !vsub_xr. eexists _, _. repeat split. unfold rsub.
  apply (zipR_lt Rminus (fun _ => True)); auto. intros; lra. clear. induction c; constructor; auto.
Qed.
Lemma Rel_div a b w : Rel a b -> Pos w -> Rel (zipw (@ndiv XR) a w) (zipw (@ndiv XR) b w).
Proof.
  intros (a' & b' & -> & -> & H) (c & -> & Hc). rewrite !zipdiv_xr by (eapply Forall_impl; [|exact Hc]; cbn; intros; lra).
  eexists _, _. repeat split. apply (zipR_lt Rdiv (fun x => 0 < x)); auto. intros x y z Hz Hl. unfold Rdiv. apply Rmult_lt_compat_r; auto. apply Rinv_0_lt_compat; auto.
Qed.
Lemma F2_repeat (a b : list R) : Forall2 Rlt a b -> forall z : R, Forall2 Rlt (map (fun x => x - z) a) (map (fun x => x - z) b).
Proof. intros H z. induction H; cbn; constructor; auto. lra. Qed.
Lemma Rel_bsub a b z v1 : Rel a b -> Fins z -> (2 <= length a)%nat -> bcast2 (@nsub XR) b z = Ok v1 -> exists v2, bcast2 (@nsub XR) a z = Ok v2 /\ Rel v2 v1.
Proof.
  intros H F Hl. pose proof (Rel_len _ _ H) as E. unfold bcast2. rewrite E. destruct (Nat.eqb (length b) (length z)).
  - intros G. injection G as <-. eexists. split; [reflexivity|]. apply Rel_sub; auto.
  - destruct b as [|y [|y2 b]]; [exfalso; revert Hl; rewrite E; cbn; lia|exfalso; revert Hl; rewrite E; cbn; lia|]. destruct a as [|x [|x2 a]]; [cbn in Hl; lia|cbn in Hl; lia|].
    destruct z as [|z [|z2 zs]]; try discriminate. intros G. assert (G' : v1 = map (fun x => @nsub XR x z) (y :: y2 :: b)) by congruence. subst v1. clear G.
    exists (map (fun x => @nsub XR x z) (x :: x2 :: a)). split; [reflexivity|].
    destruct H as (a' & b' & Ea & Eb & H). destruct F as ([|c [|]] & Ez); try discriminate. injection Ez as ->. rewrite Ea, Eb.
    exists (map (fun x => x - c) a'), (map (fun x => x - c) b'). unfold xv. rewrite !map_map. repeat split; auto. apply F2_repeat; auto.
Qed.
Lemma Rel_bdiv a b w v1 : Rel a b -> Pos w -> length w = length a -> bcast2 (@ndiv XR) b w = Ok v1 -> exists v2, bcast2 (@ndiv XR) a w = Ok v2 /\ Rel v2 v1.
Proof.
  intros H F Hl. pose proof (Rel_len _ _ H) as E. rewrite !bcast2_eq by congruence. intros G. injection G as <-. eexists. split; [reflexivity|]. apply Rel_div; auto.
Qed.
Lemma Rel_take a b inds v1 : Rel a b -> take b inds = Ok v1 -> exists v2, take a inds = Ok v2 /\ Rel v2 v1.
Proof.
  intros H G. apply take_ok in G. induction G as [|i y inds v1 Hy G IH].
  - exists []. split; [reflexivity|apply Rel_nil].
  - destruct IH as (v2 & H2 & R2). destruct H as (a' & b' & -> & -> & H). rewrite xv_nth in Hy. destruct (nth_error b' i) as [yr|] eqn:Ey; [|discriminate]. injection Hy as <-.
    destruct (Forall2_nth _ _ _ _ _ H Ey) as (xr & Ex & Hlt). exists (Fin xr :: v2). split.
    + apply take_ok. apply take_ok in H2. constructor; auto. rewrite xv_nth, Ex. reflexivity.
    + apply (Rel_app [Fin xr] [Fin yr]); auto. exists [xr], [yr]. repeat split. constructor; auto.
Qed.
Lemma Fins_take m inds v : Fins m -> take m inds = Ok v -> Fins v.
Proof.
  intros (c & ->) G. apply take_ok in G. induction G as [|i y inds v Hy G (c' & ->)]; [exists []; reflexivity|].
  rewrite xv_nth in Hy. destruct (nth_error c i) as [yr|]; [|discriminate]. injection Hy as <-. exists (yr :: c'). reflexivity.
Qed.
Lemma Pos_take m inds v : (forall i x, In i inds -> nth_error m i = Some x -> exists r, x = Fin r /\ 0 < r) -> take m inds = Ok v -> Pos v.
Proof.
  intros HP G. apply take_ok in G. revert HP. induction G as [|i y inds v Hy G IH]; intros HP; [exists []; split; [reflexivity|constructor]|].
  destruct (HP i y (or_introl eq_refl) Hy) as (r & -> & Hr). destruct IH as (c & -> & Hc). { intros j x Hj. apply HP. right; auto. }
  exists (r :: c). split; [reflexivity|]. constructor; auto.
Qed.
Lemma Pos_nth w i x : Pos w -> nth_error w i = Some x -> exists r, x = Fin r /\ 0 < r.
Proof.
  intros (c & -> & Hc) H. rewrite xv_nth in H. destruct (nth_error c i) as [r|] eqn:E; [|discriminate]. injection H as <-. exists r. split; auto.
  rewrite Forall_forall in Hc. apply Hc. eapply nth_error_In; eauto.
Qed.
Lemma Rel_max a b m : Rel a b -> npmax b = Ok m -> exists x y, npmax a = Ok (Fin x : XR) /\ m = Fin y /\ x < y.
Proof.
  intros (a' & b' & -> & -> & H) G. assert (Nb : b' <> []) by (intros ->; discriminate). assert (Na : a' <> []) by (intros ->; inversion H; subst; congruence).
  rewrite npmax_xr in G by auto. injection G as <-. exists (rlmax a'), (rlmax b'). split; [apply npmax_xr; auto|]. split; auto.
  destruct H as [|x y a b Hxy H]; [congruence|]. cbn [rlmax]. clear Na Nb. revert x y Hxy. induction H as [|u v a b Huv H IH]; intros x y Hxy; cbn [fold_left]; auto.
  apply IH. unfold Rmax. destruct (Rle_dec x u), (Rle_dec y v); lra.
Qed.
Lemma Rel_sum a b : Rel a b -> exists x y, vsum a = (Fin x : XR) /\ vsum b = (Fin y : XR) /\ x <= y.
Proof.
  intros (a' & b' & -> & -> & H). unfold vsum. change (@nofZ XR 0) with (Fin 0 : XR). rewrite !vsum_xr, !fold_plus. eexists _, _. split; [reflexivity|]. split; [reflexivity|].
  induction H; cbn [rlsum]; lra.
Qed.
Lemma value_lt rho m1 m2 s1 s2 : 0 <= rho -> m1 < m2 -> s1 <= s2 ->
  @nltb XR (@nadd XR (Fin m1) (@nmul XR (Fin rho) (Fin s1))) (@nadd XR (Fin m2) (@nmul XR (Fin rho) (Fin s2))) = true.
Proof. intros. change (@nltb XR (Fin (m1 + rho * s1)) (Fin (m2 + rho * s2)) = true). apply xltb_fin. nra. Qed.

Section Doc.
  Variables (delta rho : R) (k : nat) (objs : list (list R)) (ideal nadir : list R).
  Hypothesis Hd : 0 < delta.
  Hypothesis Hr : 0 <= rho.
  Hypothesis Hk : (2 <= k)%nat.
  Hypothesis Hm : Forall (fun r => length r = k) objs.
  Hypothesis Hi : length ideal = k.
  Hypothesis Hin : rvle ideal nadir.
  Let av : @asf_val XR := nb_asf_doc (Fin delta : XR) (Fin rho : XR).
  Let n_ : list XR := xv nadir.
  Let i_ : list XR := xv ideal.

  Lemma lenN : length nadir = k.
  Proof. rewrite <- Hi. symmetry. apply rvle_len. auto. Qed.
  Lemma uto_xr (v : list R) : utopian_of (Fin delta : XR) (xv v) = xv (map (fun x => x - delta) v).
  Proof. unfold utopian_of, xv. rewrite !map_map. reflexivity. Qed.
  Lemma w_eq : vsub n_ (utopian_of (Fin delta : XR) i_) = xv (rsub nadir (map (fun x => x - delta) ideal)).
  Proof. unfold i_. rewrite uto_xr. apply vsub_xr. Qed.
  Lemma sub_pos (z v : list R) : rvle v z -> Forall (fun x => 0 < x) (rsub z (map (fun x => x - delta) v)).
  Proof. intros H. induction H; cbn; constructor; auto. lra. Qed.
  Lemma w_pos : Pos (vsub n_ (utopian_of (Fin delta : XR) i_)).
  Proof. rewrite w_eq. eexists. split; [reflexivity|]. apply sub_pos. auto. Qed.
  Lemma w_len : length (vsub n_ (utopian_of (Fin delta : XR) i_)) = k.
  Proof. rewrite w_eq, xv_length, rsub_len; rewrite ?map_length, lenN; auto. Qed.
  Lemma rel_rows f g : In f (xm objs) -> In g (xm objs) -> strictly_better g f -> Rel g f /\ length g = k.
  Proof.
    intros Hf Hg H. apply in_map_iff in Hf as (f' & <- & Hf). apply in_map_iff in Hg as (g' & <- & Hg). split.
    - exists g', f'. repeat split. clear - H. unfold strictly_better in H. revert f' H. induction g' as [|x g IH]; intros [|y f] H; inversion H; subst; constructor; auto. apply xltb_fin. auto.
    - rewrite xv_length. rewrite Forall_forall in Hm. auto.
  Qed.

  Lemma point_improves ref : Fins ref -> improves_on av (xm objs) (APoint n_ i_) ref.
  Proof.
    intros HF f g v Hf Hg B H _. destruct (rel_rows f g Hf Hg B) as (R0 & Lg). unfold av, nb_asf_doc in *.
    apply rbind_ok in H as (d & Hd1 & H). apply rbind_ok in H as (t & Ht & H). apply rbind_ok in H as (m & Hmx & H). apply rbind_ok in H as (e & He & H). injection H as <-.
    destruct (Rel_bsub g f ref d R0 HF) as (d2 & E1 & R1); [lia|auto|]. rewrite E1. cbn [rbind].
    assert (Ld : length d2 = k).
    { assert (LL : length d2 = length g); [|lia]. clear - E1 Hk Lg. unfold bcast2 in E1. destruct (Nat.eqb_spec (length g) (length ref)).
      - injection E1 as <-. rewrite zipw_length. apply Nat.min_l. apply Nat.eq_le_incl. exact e.
      - destruct g as [|x [|x2 g]]; [cbn in Lg; lia|cbn in Lg; lia|]. destruct ref as [|y [|y2 r]]; try discriminate. injection E1 as <-. cbn. rewrite map_length. reflexivity. }
    destruct (Rel_bdiv d2 d _ t R1 w_pos) as (t2 & E2 & R2); [rewrite w_len; lia|auto|]. rewrite E2. cbn [rbind].
    destruct (Rel_max _ _ _ R2 Hmx) as (x & y & E3 & -> & Hxy). rewrite E3. cbn [rbind].
    destruct (Rel_bdiv g f _ e R0 w_pos) as (e2 & E4 & R4); [rewrite w_len; lia|auto|]. rewrite E4. cbn [rbind].
    destruct (Rel_sum _ _ R4) as (s1 & s2 & E5 & E6 & Hs). rewrite E5, E6. eexists. split; [reflexivity|]. apply value_lt; auto.
  Qed.

  Lemma two_improves lt lte ref : (forall v, take ref lte = Ok v -> Fins v) -> improves_on av (xm objs) (AMaxOfTwo n_ i_ lt lte) ref.
  Proof.
    intros HF f g v Hf Hg B H _. destruct (rel_rows f g Hf Hg B) as (R0 & Lg). unfold av, nb_asf_doc in *.
    apply rbind_ok in H as (f1 & F1 & H). apply rbind_ok in H as (i1 & I1 & H). apply rbind_ok in H as (w1 & W1 & H).
    apply rbind_ok in H as (f2 & F2 & H). apply rbind_ok in H as (z2 & Z2 & H). apply rbind_ok in H as (w2 & W2 & H).
    apply rbind_ok in H as (m & Hmx & H). apply rbind_ok in H as (e & He & H). injection H as <-.
    destruct (Rel_take _ _ _ _ R0 F1) as (g1 & G1 & R1). destruct (Rel_take _ _ _ _ R0 F2) as (g2 & G2 & R2).
    rewrite G1, I1, W1, G2, Z2, W2. cbn [rbind].
    assert (P1 : Pos w1) by (eapply Pos_take; [|exact W1]; intros i x _ Hx; eapply Pos_nth; [exact w_pos|exact Hx]).
    assert (P2 : Pos w2) by (eapply Pos_take; [|exact W2]; intros i x _ Hx; eapply Pos_nth; [exact w_pos|exact Hx]).
    assert (RR : Rel (zipw (@ndiv XR) (vsub g1 i1) w1 ++ zipw (@ndiv XR) (vsub g2 z2) w2) (zipw (@ndiv XR) (vsub f1 i1) w1 ++ zipw (@ndiv XR) (vsub f2 z2) w2)).
    { apply Rel_app; apply Rel_div; auto; apply Rel_sub; auto. eapply Fins_take; [|exact I1]. exists ideal. reflexivity. }
    destruct (Rel_max _ _ _ RR Hmx) as (x & y & E3 & -> & Hxy). rewrite E3. cbn [rbind].
    destruct (Rel_bdiv g f _ e R0 w_pos) as (e2 & E4 & R4); [rewrite w_len; lia|auto|]. rewrite E4. cbn [rbind].
    destruct (Rel_sum _ _ R4) as (s1 & s2 & E5 & E6 & Hs). rewrite E5, E6. eexists. split; [reflexivity|]. apply value_lt; auto.
  Qed.

  Lemma stom_improves z : rvle ideal z -> improves_on av (xm objs) (AStom i_) (xv z).
  Proof.
    intros HF f g v Hf Hg B H _. destruct (rel_rows f g Hf Hg B) as (R0 & Lg). unfold av, nb_asf_doc in *.
    set (u := utopian_of (Fin delta : XR) i_) in *. assert (Fu : Fins u) by (unfold u, i_; rewrite uto_xr; eexists; reflexivity).
    assert (Lu : length u = k) by (unfold u, i_; rewrite uto_xr, xv_length, map_length; auto).
    pose proof (rvle_len _ _ HF) as Lz.
    assert (Pw : Pos (vsub (xv z : list XR) u)). { unfold u, i_. rewrite uto_xr. unfold vsub. rewrite vsub_xr. eexists. split; [reflexivity|]. apply sub_pos; auto. }
    assert (Lw : length (vsub (xv z : list XR) u) = k). { unfold vsub. rewrite zipw_length, xv_length, <- Lz, Hi. apply Nat.min_l. apply Nat.eq_le_incl. symmetry. exact Lu. }
    apply rbind_ok in H as (d & Hd1 & H). apply rbind_ok in H as (t & Ht & H). apply rbind_ok in H as (m & Hmx & H). apply rbind_ok in H as (e & He & H). injection H as <-.
    destruct (Rel_bsub g f u d R0 Fu) as (d2 & E1 & R1); [lia|auto|]. rewrite E1. cbn [rbind].
    assert (Ld : length d2 = k). { rewrite bcast2_eq in E1 by (etransitivity; [exact Lg|symmetry; exact Lu]). injection E1 as <-. rewrite zipw_length. etransitivity; [apply Nat.min_l; apply Nat.eq_le_incl; etransitivity; [exact Lg|symmetry; exact Lu]|exact Lg]. }
    destruct (Rel_bdiv d2 d _ t R1 Pw) as (t2 & E2 & R2); [lia|auto|]. rewrite E2. cbn [rbind].
    destruct (Rel_max _ _ _ R2 Hmx) as (x & y & E3 & -> & Hxy). rewrite E3. cbn [rbind].
    destruct (Rel_bdiv g f _ e R0 Pw) as (e2 & E4 & R4); [lia|auto|]. rewrite E4. cbn [rbind].
    destruct (Rel_sum _ _ R4) as (s1 & s2 & E5 & E6 & Hs). rewrite E5, E6. eexists. split; [reflexivity|]. apply value_lt; auto.
  Qed.

  Lemma guess_improves ex z : length z = k -> (forall i x y, ~ In i ex -> nth_error z i = Some x -> nth_error nadir i = Some y -> x < y) ->
    improves_on av (xm objs) (AGuess n_ i_ ex) (xv z).
  Proof.
    intros Lz HF f g v Hf Hg B H _. destruct (rel_rows f g Hf Hg B) as (R0 & Lg). unfold av, nb_asf_doc in *. pose proof (Rel_len _ _ R0) as Lfg. rewrite Lfg.
    apply rbind_ok in H as (f1 & F1 & H). apply rbind_ok in H as (n1 & N1 & H). apply rbind_ok in H as (w1 & W1 & H). apply rbind_ok in H as (m & Hmx & H).
    apply rbind_ok in H as (f2 & F2 & H). apply rbind_ok in H as (w2 & W2 & H). injection H as <-.
    destruct (Rel_take _ _ _ _ R0 F1) as (g1 & G1 & R1). destruct (Rel_take _ _ _ _ R0 F2) as (g2 & G2 & R2). rewrite G1, N1, W1. cbn [rbind].
    assert (P1 : Pos w1).
    { eapply Pos_take; [|exact W1]. intros i x Hx Hn. apply filter_In in Hx as (_ & Hx). apply negb_true_iff in Hx.
      assert (Hni : ~ In i ex). { intros C. apply not_true_iff_false in Hx. apply Hx. apply existsb_exists. exists i. split; auto. apply Nat.eqb_refl. }
      unfold n_, vsub in Hn. rewrite vsub_xr, xv_nth in Hn. unfold rsub in Hn.
      destruct (nth_error (zipw Rminus nadir z) i) as [r|] eqn:E; [|discriminate]. injection Hn as <-. exists r. split; auto.
      rewrite zipw_nth_all in E. destruct (nth_error nadir i) as [y|] eqn:Ey; [|discriminate]. destruct (nth_error z i) as [x|] eqn:Ez; [|discriminate].
      injection E as <-. specialize (HF i x y Hni Ez Ey). lra. }
    assert (P2 : Pos w2) by (eapply Pos_take; [|exact W2]; intros i x _ Hx; eapply Pos_nth; [exact w_pos|exact Hx]).
    assert (RR : Rel (zipw (@ndiv XR) (vsub g1 n1) w1) (zipw (@ndiv XR) (vsub f1 n1) w1)).
    { apply Rel_div; auto. apply Rel_sub; auto. eapply Fins_take; [|exact N1]. exists nadir. reflexivity. }
    destruct (Rel_max _ _ _ RR Hmx) as (x & y & E3 & -> & Hxy). rewrite E3. cbn [rbind]. rewrite G2, W2. cbn [rbind].
    destruct (Rel_sum _ _ (Rel_div _ _ _ R1 P1)) as (s1 & s2 & E5 & E6 & Hs).
    destruct (Rel_sum _ _ (Rel_div _ _ _ R2 P2)) as (s3 & s4 & E7 & E8 & Hs').
    eexists. split; [reflexivity|].
    change (@nltb XR (@nadd XR (Fin x) (@nmul XR (Fin rho) (@nadd XR (@vsum XR (zipw (@ndiv XR) g1 w1)) (@vsum XR (zipw (@ndiv XR) g2 w2)))))
      (@nadd XR (Fin y) (@nmul XR (Fin rho) (@nadd XR (@vsum XR (zipw (@ndiv XR) f1 w1)) (@vsum XR (zipw (@ndiv XR) f2 w2))))) = true).
    rewrite E5, E6, E7, E8. apply (value_lt rho x y (s1 + s3) (s2 + s4)); auto. lra.
  Qed.
End Doc.

(** ** What a classification asks for *)
Lemma fins_nth (z : list XR) : (forall i x, nth_error z i = Some x -> exists r, x = Fin r) -> Fins z.
Proof.
  induction z as [|x z IH]; intros H; [exists []; reflexivity|]. destruct (H 0%nat x eq_refl) as (r & ->). destruct IH as (c & ->). { intros i y Hy. exact (H (S i) y Hy). }
  exists (r :: c). reflexivity.
Qed.
Lemma rvle_of_nth (a b : list R) : length a = length b -> (forall i x y, nth_error a i = Some x -> nth_error b i = Some y -> x <= y) -> rvle a b.
Proof.
  revert b. induction a as [|x a IH]; intros [|y b] L H; try discriminate; constructor.
  - exact (H 0%nat x y eq_refl eq_refl).
  - apply IH; [cbn in L; congruence|]. intros i. exact (H (S i)).
Qed.
Lemma leb_between (l : XR) a b : @nleb XR (Fin a) l = true -> @nleb XR l (Fin b) = true -> exists r, l = Fin r /\ a <= r <= b.
Proof. intros H1 H2. destruct l as [| | |r']; try discriminate. exists r'. apply xleb_fin in H1, H2. auto. Qed.

(** Every objective not classified free gets a level strictly below the nadir, and there is one classification per objective. *)
Definition below_nadir {N : NumOps} (k : nat) (ideal nadir : list N) (cur : list N) (cl : list cls) (lv : list N) : Prop :=
  length cl = k /\
  forall i c x y, nth_error cl i = Some c -> c <> CFree -> implied_level c i ideal nadir cur lv = Some x -> nth_error nadir i = Some y -> nltb x y = true.

Section Asked.
  Variables (delta rho : R) (k : nat) (objs : list (list R)) (decs : list (list XR)) (fc : list XR -> nat) (ideal nadir : list R).
  Hypothesis Hd : 0 < delta.
  Hypothesis Hr : 0 <= rho.
  Hypothesis Hk : (2 <= k)%nat.
  Hypothesis Hm : Forall (fun r => length r = k) objs.
  Hypothesis Hi : length ideal = k.
  Hypothesis Hbox : Forall (fun r => rvle ideal r /\ rvle r nadir) objs.
  Let av : @asf_val XR := nb_asf_doc (Fin delta : XR) (Fin rho : XR).
  Let p : nb_problem XR := PDisc k (xm objs) decs fc.

  Lemma box_ideal cur : In cur objs -> rvle ideal nadir.
  Proof. intros H. rewrite Forall_forall in Hbox. destruct (Hbox _ H). eapply rvle_trans; eauto. Qed.

  Lemma implied_box d f cl lv z : nb_validate p (xv ideal) (xv nadir) (QClass f) d = Ok tt -> bd_cls d = Some cl -> bd_levels d = Some lv ->
    below_nadir (N:=XR) k (xv ideal) (xv nadir) f cl lv -> In f (xm objs) -> implied_point k cl (xv ideal) (xv nadir) f lv z ->
    exists rz, z = xv rz /\ length rz = k /\ rvle ideal rz /\
      forall i x y, ~ In i (where_cls CFree cl) -> nth_error rz i = Some x -> nth_error nadir i = Some y -> x < y.
  Proof.
    intros HV Hc Hl (Lc & Hb) Hf (Lz & Hz). cbn [nb_validate] in HV. apply validate_cls_iff in HV as (cl' & lv' & ns & Ec & El & _ & NB & Llv & _ & Hbt & _).
    rewrite Hc in Ec. injection Ec as <-. rewrite Hl in El. injection El as <-.
    apply in_map_iff in Hf as (cur & <- & Hcur). pose proof (box_ideal _ Hcur) as HB. rewrite Forall_forall in Hbox. destruct (Hbox _ Hcur) as [B1 B2].
    pose proof (rvle_len _ _ HB) as Ln. pose proof (rvle_len _ _ B1) as Lcur.
    assert (A : forall i, (i < k)%nat -> exists r lo hi, nth_error z i = Some (Fin r) /\ nth_error ideal i = Some lo /\ nth_error nadir i = Some hi /\ lo <= r /\
       (nth_error cl i <> Some CFree -> r < hi)).
    { intros i Hik. specialize (Hz i Hik). destruct (nth_error cl i) as [c|] eqn:Ei; [|apply nth_error_None in Ei; lia].
      destruct (nth_error ideal i) as [lo|] eqn:Elo; [|apply nth_error_None in Elo; lia]. destruct (nth_error nadir i) as [hi|] eqn:Ehi; [|apply nth_error_None in Ehi; lia].
      destruct (nth_error cur i) as [cu|] eqn:Ecu; [|apply nth_error_None in Ecu; lia].
      pose proof (rvle_nth _ _ _ _ _ HB Elo Ehi) as O1. pose proof (rvle_nth _ _ _ _ _ B1 Elo Ecu) as O2.
      assert (exists r, implied_level (N:=XR) c i (xv ideal) (xv nadir) (xv cur) lv = Some (Fin r) /\ lo <= r) as (r & Er & Hlo).
      { assert (U : c = CImproveUntil \/ c = CImpairUntil -> exists r, nth_error lv i = Some (Fin r : XR) /\ lo <= r).
        { intros U. destruct (Hbt i) as (a & u & b & E1 & E2 & E3 & L1 & L2). { destruct U; subst; auto. }
          rewrite xv_nth, Elo in E1. injection E1 as <-. rewrite xv_nth, Ehi in E3. injection E3 as <-. destruct (leb_between u lo hi L1 L2) as (r & -> & G). exists r. split; auto. apply G. }
        destruct c; cbn [implied_level]; try (rewrite xv_nth, ?Elo, ?Ehi, ?Ecu; cbn [option_map]; eexists; split; [reflexivity|lra]); auto.
        exfalso. apply NB. eapply nth_error_In; eauto. }
      rewrite Er in Hz. exists r, lo, hi. repeat split; auto. intros NF. assert (L : @nltb XR (Fin r) (Fin hi) = true).
      { eapply (Hb i c); eauto. congruence. rewrite xv_nth, Ehi. reflexivity. }
      apply xltb_fin in L. auto. }
    destruct (fins_nth z) as (rz & ->).
    { intros i x Hx. assert (i < k)%nat by (rewrite <- Lz; apply nth_error_Some; congruence). destruct (A i) as (r & _ & _ & E & _); auto. exists r. congruence. }
    rewrite xv_length in Lz. exists rz. split; [reflexivity|]. split; [exact Lz|]. split.
    - apply rvle_of_nth; [congruence|]. intros i x y Hx Hy. assert (i < k)%nat by (rewrite <- Lz; apply nth_error_Some; congruence).
      destruct (A i) as (r & lo & hi & E & E1 & _ & G & _); auto. rewrite xv_nth, Hy in E. injection E as ->. rewrite Hx in E1. injection E1 as ->. exact G.
    - intros i x y Hnf Hx Hy. assert (i < k)%nat by (rewrite <- Lz; apply nth_error_Some; congruence).
      destruct (A i) as (r & lo & hi & E & _ & E2 & _ & G); auto. rewrite xv_nth, Hx in E. injection E as ->. rewrite Hy in E2. injection E2 as ->. apply G.
      intros C. apply Hnf. apply where_cls_in. exact C.
  Qed.

  Lemma asked_improves d f cl lv a ref : nb_validate p (xv ideal) (xv nadir) (QClass f) d = Ok tt -> bd_cls d = Some cl -> bd_levels d = Some lv ->
    below_nadir (N:=XR) k (xv ideal) (xv nadir) f cl lv -> In f (xm objs) -> asked k (xv ideal) (xv nadir) cl lv f a ref -> improves_on av (xm objs) a ref.
  Proof.
    intros HV Hc Hl HB Hf HA. pose proof Hf as Hf'. apply in_map_iff in Hf' as (cur & _ & Hcur). pose proof (box_ideal _ Hcur) as HI.
    destruct HA as [(-> & ->)|(j & Hj & -> & Hz)].
    - cbn [scalarization]. eapply two_improves; eauto. intros v Hv. apply fins_nth. intros i x Hx.
      apply take_ok in Hv. destruct (Forall2_nth _ _ _ _ _ Hv Hx) as (n & Hn & E). apply nth_error_In in Hn. apply where_cls_in in Hn.
      cbn [nb_validate] in HV. apply validate_cls_iff in HV as (cl' & lv' & ns & Ec & El & _ & _ & _ & _ & Hbt & _).
      rewrite Hc in Ec. injection Ec as <-. rewrite Hl in El. injection El as <-.
      destruct (Hbt n) as (aa & u & b & E1 & E2 & E3 & L1 & L2); auto. rewrite xv_nth in E1, E3.
      destruct (nth_error ideal n); [|discriminate]. destruct (nth_error nadir n); [|discriminate]. injection E1 as <-. injection E3 as <-.
      destruct (leb_between _ _ _ L1 L2) as (r' & -> & _). exists r'. congruence.
    - destruct (implied_box d f cl lv ref HV Hc Hl HB Hf Hz) as (rz & -> & Lz & Hle & Hlt).
      destruct j as [|[|[|[|j]]]]; try lia; cbn [scalarization].
      + eapply stom_improves; eauto.
      + eapply point_improves; eauto. exists rz. reflexivity.
      + eapply guess_improves; eauto.
  Qed.
End Asked.
