(** * Synchronous NIMBUS: the documented achievement functions change by a constant when
    constants are added to the objectives (C115), proofs. *)
From Coq Require Import ZArith Reals Lra List Bool Lia.
From Verif Require Import Num NumXR Py Np Spec NpFacts XRFacts SNavShift PNavShift PNautShift MNimbus MNimbusAsf SNimbus SNimbusShift PNimbusShift.
Import ListNotations.
Open Scope R_scope.

Lemma up_add a b (x y : XR) : nadd (up a x) (up b y) = up (a + b) (nadd x y).
Proof. destruct x as [| | |x], y as [| | |y]; try reflexivity. cbn. f_equal. lra. Qed.
Lemma up_zero (x : XR) : up 0 x = x.
Proof. destruct x as [| | |x]; try reflexivity. cbn. f_equal. lra. Qed.
Lemma up_add_r b (x y : XR) : nadd x (up b y) = up b (nadd x y).
Proof. rewrite <- (up_zero x) at 1. rewrite up_add. f_equal. lra. Qed.
Lemma up_mul r b (y : XR) : nmul (Fin r : XR) (up b y) = up (r * b) (nmul (Fin r : XR) y).
Proof.
  destruct y as [| | |y]; try reflexivity; cbn; unfold xmul; try (destruct (xsign r); reflexivity). f_equal. lra.
Qed.
Definition good (x : XR) : Prop := exists r, x = Fin r /\ r <> 0.
Definition toR (x : XR) : R := match x with Fin r => r | _ => 0 end.
Lemma up_div b (x w : XR) : good w -> ndiv (up b x) w = up (b / toR w) (ndiv x w).
Proof.
  intros (r & -> & Hr). destruct x as [| | |x]; cbn [up ndiv XR toR].
  - reflexivity.
  - unfold xdiv. destruct (Req_EM_T r 0); [contradiction|]. destruct (Rlt_dec r 0); reflexivity.
  - unfold xdiv. destruct (Req_EM_T r 0); [contradiction|]. destruct (Rlt_dec r 0); reflexivity.
  - rewrite !xdiv_fin by exact Hr. cbn [up]. f_equal. field. exact Hr.
Qed.
Fixpoint cst (t : list R) (w : list XR) : R :=
  match t, w with c :: t', x :: w' => c / toR x + cst t' w' | _, _ => 0 end.
Lemma sum_moved : forall t w f (a : R) (acc : XR), length f = length t -> length w = length t -> Forall good w ->
  fold_left nadd (zipw ndiv (moved t f) w) (up a acc) = up (a + cst t w) (fold_left nadd (zipw ndiv f w) acc).
Proof.
  induction t as [|c t IH]; intros [|w0 w] [|x f] a acc Hf Hw HG; try discriminate; cbn [moved zipw fold_left cst].
  - rewrite Rplus_0_r. reflexivity.
  - inversion HG; subst. rewrite up_div by assumption. rewrite up_add, IH by (cbn in *; auto). f_equal. lra.
Qed.
Lemma vsum_moved t w f : length f = length t -> length w = length t -> Forall good w ->
  vsum (zipw ndiv (moved t f) w) = up (cst t w) (vsum (zipw ndiv f w)).
Proof.
  intros. unfold vsum. rewrite <- (up_zero (nofZ 0)) at 1. rewrite sum_moved by assumption. f_equal. lra.
Qed.
Lemma bsum_moved t w f : length f = length t -> length w = length t -> Forall good w ->
  exists e, bcast2 ndiv (moved t f) w = Ok e /\ bcast2 ndiv f w = Ok (zipw ndiv f w) /\ vsum e = up (cst t w) (vsum (zipw ndiv f w)).
Proof.
  intros Hf Hw HG. unfold bcast2. rewrite moved_length, Hf, Hw, Nat.eqb_refl. eexists. split; [reflexivity|]. split; [reflexivity|]. apply vsum_moved; assumption.
Qed.
Lemma take_forall {A} (P : A -> Prop) (v : list A) : forall l w, take v l = Ok w -> (forall j x, In j l -> nth_error v j = Some x -> P x) -> Forall P w.
Proof.
  unfold take. induction l as [|i l IH]; intros w H G; cbn [map rseq] in H; [injection H as <-; constructor|].
  unfold at_ in H at 1. destruct (nth_error v i) as [x|] eqn:E; [|discriminate]. cbn [rbind] in H.
  destruct (rseq (map (at_ v) l)) as [w'|] eqn:E'; [|discriminate]. cbn [rbind] in H. injection H as <-.
  constructor; [apply (G i x); cbn; auto|]. apply IH; [reflexivity|]. intros j y Hj. apply G. cbn. auto.
Qed.
Lemma forall_nth {A} (P : A -> Prop) (l : list A) : (forall j x, nth_error l j = Some x -> P x) -> Forall P l.
Proof. intros H. apply Forall_forall. intros x Hx. apply In_nth_error in Hx. destruct Hx as [j Hj]. exact (H j x Hj). Qed.
Lemma nth_xv (v : list R) j (x : XR) : nth_error (xv v) j = Some x -> exists r, x = Fin r /\ nth_error v j = Some r.
Proof. unfold xv. rewrite nth_error_map. destruct (nth_error v j) as [r|]; [|discriminate]. intros [= <-]. eauto. Qed.
Lemma nth_zip {A B C} (f : A -> B -> C) : forall a b j x, nth_error (zipw f a b) j = Some x -> exists y z, nth_error a j = Some y /\ nth_error b j = Some z /\ x = f y z.
Proof. induction a as [|y a IH]; intros [|z b] [|j] x H; cbn in *; try discriminate; [injection H as <-; eauto|]. eapply IH. exact H. Qed.

Section Asf.
  Context (t : list R) (delta rho : R) (I Nd : list R) (HD : proper_data t delta I Nd).
  Notation k := (length t).
  Notation mv := (moved t).
  Notation D := (Fin delta : XR).

  Lemma utopian_moved2 (i : list XR) : utopian_of D (mv i) = mv (utopian_of D i).
  Proof. exact (utopian_moved t i delta). Qed.
  Lemma utopian_len (i : list XR) : length (utopian_of D i) = length i.
  Proof. apply map_length. Qed.
  Lemma vsub_moved (a b : list XR) : length a = k -> length b = k -> vsub (mv a) (mv b) = vsub a b.
  Proof. intros. unfold vsub. apply moved_zipw; auto using up_sub. Qed.
  Lemma vsub_len (a b : list XR) n : length a = n -> length b = n -> length (vsub a b) = n.
  Proof. intros H1 H2. unfold vsub. rewrite zipw_length, H1, H2. apply Nat.min_id. Qed.
  Notation W := (vsub (xv Nd : list XR) (utopian_of D (xv I))).
  Lemma w_len : length W = k.
  Proof. destruct HD as (LI & LN & _). apply vsub_len; [rewrite xv_length; exact LN|rewrite utopian_len, xv_length; exact LI]. Qed.
  Lemma w_nth j x : nth_error W j = Some x -> good x.
  Proof.
    destruct HD as (LI & LN & HP). intros H. apply nth_zip in H. destruct H as (a & b & Ha & Hb & ->).
    apply nth_xv in Ha. destruct Ha as (n & -> & Ha). unfold utopian_of in Hb. rewrite nth_error_map in Hb.
    destruct (nth_error (xv I : list XR) j) as [b0|] eqn:E; [|discriminate]. apply nth_xv in E. destruct E as (i & -> & E). injection Hb as <-.
    exists (n - (i - delta)). split; [reflexivity|]. specialize (HP j i n E Ha). lra.
  Qed.
  Lemma w_good : Forall good W.
  Proof. apply forall_nth. exact w_nth. Qed.
  Lemma w_moved : vsub (mv (xv Nd)) (utopian_of D (mv (xv I))) = W.
  Proof. destruct HD as (LI & LN & _). rewrite utopian_moved2. apply vsub_moved; [rewrite xv_length; exact LN|rewrite utopian_len, xv_length; exact LI]. Qed.

  Lemma point_moved (z : list XR) : length z = k ->
    forall f : list XR, length f = k -> nb_asf_doc D (Fin rho : XR) (APoint (mv (xv Nd)) (mv (xv I))) (mv f) (mv z) =
      rmap (up (rho * cst t W)) (nb_asf_doc D (Fin rho : XR) (APoint (xv Nd) (xv I)) f z).
  Proof.
    intros Hz f Hf. unfold nb_asf_doc. rewrite w_moved, (moved_bcast nsub t) by (auto using up_sub).
    destruct (bcast2 nsub f z) as [d|]; [|reflexivity]. cbn [rbind]. destruct (bcast2 ndiv d W) as [u|]; [|reflexivity]. cbn [rbind].
    destruct (npmax u) as [m|]; [|reflexivity]. cbn [rbind]. destruct (bsum_moved t W f Hf w_len w_good) as (e & -> & -> & E). cbn [rbind rmap].
    rewrite E, up_mul, up_add_r. reflexivity.
  Qed.
  Lemma two_moved lt lte (z : list XR) : length z = k ->
    forall f : list XR, length f = k -> nb_asf_doc D (Fin rho : XR) (AMaxOfTwo (mv (xv Nd)) (mv (xv I)) lt lte) (mv f) (mv z) =
      rmap (up (rho * cst t W)) (nb_asf_doc D (Fin rho : XR) (AMaxOfTwo (xv Nd) (xv I) lt lte) f z).
  Proof.
    intros Hz f Hf. destruct HD as (LI & LN & _). unfold nb_asf_doc. rewrite w_moved, !(take_moved t) by (auto; rewrite xv_length; exact LI).
    destruct (take f lt) as [f1|] eqn:E1; [|reflexivity]. cbn [rmap rbind]. destruct (take (xv I : list XR) lt) as [i1|] eqn:E2; [|reflexivity]. cbn [rmap rbind].
    destruct (take W lt) as [w1|] eqn:E3; [|reflexivity]. cbn [rmap rbind].
    destruct (take f lte) as [f2|] eqn:E4; [|reflexivity]. cbn [rmap rbind]. destruct (take z lte) as [z2|] eqn:E5; [|reflexivity]. cbn [rmap rbind].
    destruct (take W lte) as [w2|] eqn:E6; [|reflexivity]. cbn [rmap rbind].
    apply take_len in E1, E2, E4, E5. unfold vsub at 1 2. rewrite !moved_zipw by (rewrite ?tl_len; auto using up_sub).
    fold (vsub f1 i1) (vsub f2 z2).
    destruct (npmax (zipw ndiv (vsub f1 i1) w1 ++ zipw ndiv (vsub f2 z2) w2)) as [m|]; [|reflexivity]. cbn [rbind].
    destruct (bsum_moved t W f Hf w_len w_good) as (e & -> & -> & E). cbn [rbind rmap].
    rewrite E, up_mul, up_add_r. reflexivity.
  Qed.
  Lemma stom_moved r : length r = k -> (forall j x y, nth_error r j = Some x -> nth_error I j = Some y -> x <> y - delta) ->
    forall f : list XR, length f = k -> nb_asf_doc D (Fin rho : XR) (AStom (mv (xv I))) (mv f) (mv (xv r)) =
      rmap (up (rho * cst t (vsub (xv r : list XR) (utopian_of D (xv I))))) (nb_asf_doc D (Fin rho : XR) (AStom (xv I)) f (xv r)).
  Proof.
    intros Hr HR f Hf. destruct HD as (LI & LN & _). unfold nb_asf_doc. rewrite utopian_moved2, vsub_moved by (rewrite ?utopian_len, xv_length; assumption).
    rewrite (moved_bcast nsub t) by (auto using up_sub; rewrite utopian_len, xv_length; exact LI).
    set (w := vsub (xv r : list XR) (utopian_of D (xv I))).
    assert (wl : length w = k) by (apply vsub_len; rewrite ?utopian_len, xv_length; assumption).
    assert (wg : Forall good w).
    { apply forall_nth. intros j x H. apply nth_zip in H. destruct H as (a & b & Ha & Hb & ->).
      apply nth_xv in Ha. destruct Ha as (n & -> & Ha). unfold utopian_of in Hb. rewrite nth_error_map in Hb.
      destruct (nth_error (xv I : list XR) j) as [b0|] eqn:E; [|discriminate]. apply nth_xv in E. destruct E as (i & -> & E). injection Hb as <-.
      exists (n - (i - delta)). split; [reflexivity|]. specialize (HR j n i Ha E). lra. }
    destruct (bcast2 nsub f (utopian_of D (xv I))) as [d|]; [|reflexivity]. cbn [rbind]. destruct (bcast2 ndiv d w) as [u|]; [|reflexivity]. cbn [rbind].
    destruct (npmax u) as [m|]; [|reflexivity]. cbn [rbind]. destruct (bsum_moved t w f Hf wl wg) as (e & -> & -> & E). cbn [rbind rmap].
    rewrite E, up_mul, up_add_r. reflexivity.
  Qed.
  Lemma not_in_out n ex j : In j (not_in n ex) -> ~ In j ex.
  Proof.
    unfold not_in. rewrite filter_In. intros [_ H] H'. apply negb_true_iff in H. apply Bool.not_true_iff_false in H. apply H. apply existsb_exists. exists j. rewrite Nat.eqb_refl. auto.
  Qed.
  Definition taken (w : list XR) (l : list nat) : list XR := match take w l with Ok v => v | Raise _ => [] end.
  Lemma guess_moved ex r : length r = k -> (forall j x y, ~ In j ex -> nth_error r j = Some x -> nth_error Nd j = Some y -> x <> y) ->
    forall f : list XR, length f = k -> nb_asf_doc D (Fin rho : XR) (AGuess (mv (xv Nd)) (mv (xv I)) ex) (mv f) (mv (xv r)) =
      rmap (up (rho * (cst (tl_at t (not_in k ex)) (taken (vsub (xv Nd : list XR) (xv r)) (not_in k ex)) + cst (tl_at t ex) (taken W ex))))
        (nb_asf_doc D (Fin rho : XR) (AGuess (xv Nd) (xv I) ex) f (xv r)).
  Proof.
    intros Hr HR f Hf. pose proof HD as (LI & LN & _). unfold nb_asf_doc. rewrite w_moved, vsub_moved by (rewrite xv_length; assumption).
    rewrite !(take_moved t) by (auto; rewrite xv_length; exact LN). rewrite moved_length, Hf. set (w := vsub (xv Nd : list XR) (xv r)). set (inc := not_in k ex).
    destruct (take f inc) as [f1|] eqn:E1; [|reflexivity]. cbn [rmap rbind]. destruct (take (xv Nd : list XR) inc) as [n1|] eqn:E2; [|reflexivity]. cbn [rmap rbind].
    destruct (take w inc) as [w1|] eqn:E3; [|reflexivity]. cbn [rmap rbind]. pose proof E3 as E3'.
    apply take_len in E1, E2, E3'. unfold vsub at 1. rewrite moved_zipw by (rewrite ?tl_len; auto using up_sub). fold (vsub f1 n1).
    destruct (npmax (zipw ndiv (vsub f1 n1) w1)) as [m|]; [|reflexivity]. cbn [rbind].
    destruct (take f ex) as [f2|] eqn:E4; [|reflexivity]. cbn [rmap rbind]. destruct (take W ex) as [w2|] eqn:E5; [|reflexivity]. cbn [rmap rbind].
    pose proof E5 as E5'. apply take_len in E4, E5'.
    assert (g1 : Forall good w1).
    { apply (take_forall good w inc w1 E3). intros j x Hj H. apply nth_zip in H. destruct H as (a & b & Ha & Hb & ->). apply nth_xv in Ha. destruct Ha as (n & -> & Ha).
      apply nth_xv in Hb. destruct Hb as (b0 & -> & Hb). exists (n - b0). split; [reflexivity|]. specialize (HR j b0 n (not_in_out _ _ _ Hj) Hb Ha). lra. }
    assert (g2 : Forall good w2) by (apply (take_forall good W ex w2 E5); intros j x _; apply w_nth).
    rewrite (vsum_moved (tl_at t inc) w1 f1), (vsum_moved (tl_at t ex) w2 f2) by (rewrite ?tl_len; auto).
    unfold taken. rewrite E3, E5. rewrite up_add, up_mul, up_add_r. reflexivity.
  Qed.
  Lemma doc_changes : changes_by_a_constant t delta I Nd (nb_asf_doc D (Fin rho : XR)).
  Proof.
    intros a z H. destruct a as [n i lt lte|i|n i|n i ex]; cbn [regular] in H.
    - destruct H as (-> & -> & Hz). eexists. intros f Hf. apply two_moved; assumption.
    - destruct H as (-> & r & -> & Hr & HR). eexists. intros f Hf. apply stom_moved; assumption.
    - destruct H as (-> & -> & Hz). eexists. intros f Hf. apply point_moved; assumption.
    - destruct H as (-> & -> & r & -> & Hr & HR). eexists. intros f Hf. apply guess_moved; assumption.
  Qed.
End Asf.
