(** * E-NAUTILUS: objectives in other units (C112), proofs. *)
From Coq Require Import ZArith Reals Lra List Bool Lia.
From Verif Require Import Num NumXR Py Np Spec NpFacts XRFacts MENautilus SENUnits PNavShift.
Import ListNotations.
Open Scope R_scope.

(** ** Numbers *)
Lemma conv_leb u (x y : XR) : 0 < fst u -> nleb (conv u x) (conv u y) = nleb x y.
Proof.
  intros H. destruct x as [| | |a], y as [| | |b]; try reflexivity. cbn [conv nleb XR]. unfold xleb, rleb.
  destruct (Rle_dec (fst u * a + snd u) (fst u * b + snd u)), (Rle_dec a b); auto; exfalso; nra.
Qed.
Lemma conv_nan u (x : XR) : nisnan (conv u x) = nisnan x.
Proof. destruct x as [| | |a]; try reflexivity. cbn [conv]. rewrite !xisnan_fin. reflexivity. Qed.
Lemma conv_comb u (z : Z) (x y : XR) : (z <> 0)%Z ->
  nadd (nmul (ndiv (nofZ (z - 1)) (nofZ z)) (conv u x)) (nmul (ndiv (nofZ 1) (nofZ z)) (conv u y)) =
  conv u (nadd (nmul (ndiv (nofZ (z - 1)) (nofZ z)) x) (nmul (ndiv (nofZ 1) (nofZ z)) y)).
Proof.
  intros H. assert (Hr : IZR z <> 0) by (apply not_0_IZR; exact H).
  cbn [nofZ XR ndiv]. rewrite !xdiv_fin by exact Hr. rewrite minus_IZR.
  set (w1 := (IZR z - 1) / IZR z). set (w2 := 1 / IZR z).
  assert (W : w1 + w2 = 1). { unfold w1, w2. field. exact Hr. }
  cbn [nadd nmul XR]. destruct x as [| | |a], y as [| | |b]; cbn [conv]; unfold xmul;
    try (destruct (xsign w1), (xsign w2); cbn; reflexivity); try (cbn; reflexivity).
  cbn. f_equal. replace w2 with (1 - w1) by lra. ring.
Qed.
Definition sc (a : R) (x : XR) : XR := match x with Fin r => Fin (a * r) | _ => x end.
Lemma conv_sub u (x y : XR) : nsub (conv u x) (conv u y) = sc (fst u) (nsub x y).
Proof. destruct x as [| | |a], y as [| | |b]; try reflexivity. cbn. f_equal. ring. Qed.
Lemma sc_sq a (x : XR) : nmul (sc a x) (sc a x) = sc (a * a) (nmul x x).
Proof. destruct x as [| | |r]; try reflexivity. cbn. f_equal. ring. Qed.
Lemma sc_sum a : forall l (x : XR), fold_left nadd (map (sc a) l) (sc a x) = sc a (fold_left nadd l x).
Proof.
  induction l as [|y l IH]; intros x; [reflexivity|]. cbn [map fold_left]. rewrite <- IH. f_equal.
  destruct x as [| | |p], y as [| | |q]; try reflexivity. cbn. f_equal. ring.
Qed.
Lemma sc_sqrt a (x : XR) : 0 < a -> nsqrt (sc (a * a) x) = sc a (nsqrt x).
Proof.
  intros H. destruct x as [| | |r]; try reflexivity. cbn. assert (HH : 0 < a * a) by nra. destruct (Rlt_dec r 0) as [Hr|Hr], (Rlt_dec (a * a * r) 0) as [Hr'|Hr']; try reflexivity; try (exfalso; nra).
  cbn. f_equal. rewrite sqrt_mult; [|nra|apply Rnot_lt_le; exact Hr]. rewrite sqrt_square by lra. reflexivity.
Qed.
Lemma sc_norm a (v : list XR) : 0 < a -> vnorm (map (sc a) v) = sc a (vnorm v).
Proof.
  intros H. unfold vnorm. rewrite <- sc_sqrt by exact H. f_equal. unfold vsum. rewrite map_map.
  rewrite (map_ext _ (fun x => sc (a * a) (nmul x x))) by (intros; apply sc_sq). rewrite <- (map_map (fun x : XR => nmul x x) (sc (a * a))).
  rewrite <- sc_sum. f_equal. cbn. f_equal. ring.
Qed.
Lemma sc_sign a r : 0 < a -> xsign (a * r) = xsign r.
Proof. intros H. unfold xsign. destruct (Rlt_dec (a * r) 0), (Rlt_dec r 0); auto; try (exfalso; nra). destruct (Rlt_dec 0 (a * r)), (Rlt_dec 0 r); auto; exfalso; nra. Qed.
Lemma sc_div a (x y : XR) : 0 < a -> ndiv (sc a x) (sc a y) = ndiv x y.
Proof.
  intros H. destruct x as [| | |p], y as [| | |q]; try reflexivity; cbn.
  - destruct (Rlt_dec (a * q) 0), (Rlt_dec q 0); auto; exfalso; nra.
  - destruct (Rlt_dec (a * q) 0), (Rlt_dec q 0); auto; exfalso; nra.
  - destruct (Req_EM_T (a * q) 0), (Req_EM_T q 0); try (exfalso; nra).
    + rewrite sc_sign by exact H. reflexivity.
    + f_equal. field. split; lra.
Qed.
Lemma sc_abs a (x : XR) : 0 < a -> nabs (sc a x) = sc a (nabs x).
Proof. intros H. destruct x as [| | |r]; try reflexivity. cbn. f_equal. rewrite Rabs_mult, (Rabs_pos_eq a) by lra. reflexivity. Qed.
Lemma sc_leb a (x y : XR) : 0 < a -> nleb (sc a x) (sc a y) = nleb x y.
Proof.
  intros H. destruct x as [| | |p], y as [| | |q]; try reflexivity. cbn [sc nleb XR]. unfold xleb, rleb.
  destruct (Rle_dec (a * p) (a * q)), (Rle_dec p q); auto; exfalso; nra.
Qed.
Lemma sc_nan a (x : XR) : nisnan (sc a x) = nisnan x.
Proof. destruct x as [| | |r]; try reflexivity. cbn [sc]. rewrite !xisnan_fin. reflexivity. Qed.
Lemma sc_argmin a : 0 < a -> forall l (b : XR) bi i, argmin_from (sc a b) bi i (map (sc a) l) = argmin_from b bi i l.
Proof.
  intros H. induction l as [|x l IH]; intros b bi i; [reflexivity|]. cbn [map argmin_from].
  replace (nltb (sc a x) (sc a b)) with (nltb x b) by (rewrite !(ol_ltb _ XR_ord), !sc_leb by exact H; reflexivity).
  rewrite !sc_nan. destruct (_ && _); apply IH.
Qed.

(** ** Reductions *)
Section Min.
  Context (u : unit_change) (Hu : 0 < fst u).
  Lemma conv_fold_min : forall l (x : XR), fold_left nminimum (map (conv u) l) (conv u x) = conv u (fold_left nminimum l x).
  Proof.
    induction l as [|y l IH]; intros x; cbn [map fold_left]; auto. rewrite <- IH. f_equal. unfold nminimum. rewrite conv_leb, conv_nan by exact Hu. destruct (_ || _); reflexivity.
  Qed.
  Lemma conv_fold_max : forall l (x : XR), fold_left nmaximum (map (conv u) l) (conv u x) = conv u (fold_left nmaximum l x).
  Proof.
    induction l as [|y l IH]; intros x; cbn [map fold_left]; auto. rewrite <- IH. f_equal. unfold nmaximum. rewrite conv_leb, conv_nan by exact Hu. destruct (_ || _); reflexivity.
  Qed.
  Lemma conv_min (l : list XR) : npmin (map (conv u) l) = rmap (conv u) (npmin l).
  Proof. destruct l as [|x l]; [reflexivity|]. cbn [map npmin rmap]. rewrite conv_fold_min. reflexivity. Qed.
  Lemma conv_max (l : list XR) : npmax (map (conv u) l) = rmap (conv u) (npmax l).
  Proof. destruct l as [|x l]; [reflexivity|]. cbn [map npmax rmap]. rewrite conv_fold_max. reflexivity. Qed.
End Min.

(** ** Vectors *)
Section Conv.
  Context (us : list unit_change) (HU : proper_units us).
  Let k := length us.
  Notation cv := (conv_vec us).
  Notation cm := (conv_rows us).

  Lemma cv_length v : length v = k -> length (cv v) = k.
  Proof. intros H. unfold conv_vec. rewrite zipw_length. transitivity (Nat.min k k); [f_equal; auto|apply Nat.min_id]. Qed.
  Lemma cm_matrix m : is_matrix k m -> is_matrix k (cm m).
  Proof. intros H. apply Forall_map. eapply Forall_impl; [|exact H]. intros r Hr. apply cv_length. exact Hr. Qed.
End Conv.
Definition u0 : unit_change := (1, 0).
Lemma cv_nth us : forall v r, length v = length us -> nth r (conv_vec us v) XNan = conv (nth r us u0) (nth r v XNan).
Proof. induction us as [|c t IH]; intros [|x v] [|r] H; cbn in *; auto; try discriminate. Qed.
Lemma cv_zipw {A} (f : XR -> XR -> A) us : proper_units us -> (forall c x y, 0 < fst c -> f (conv c x) (conv c y) = f x y) -> forall a b, length a = length us -> length b = length us ->
  zipw f (conv_vec us a) (conv_vec us b) = zipw f a b.
Proof. intros HU H. induction HU as [|c t Hc HU IH]; intros [|x a] [|y b] Ha Hb; cbn [length conv_vec zipw] in *; auto; try discriminate. rewrite H by exact Hc. f_equal. apply IH; lia. Qed.
Lemma cv_zipw_up (f : XR -> XR -> XR) us : (forall c x y, f (conv c x) (conv c y) = conv c (f x y)) -> forall a b, length a = length us -> length b = length us ->
  zipw f (conv_vec us a) (conv_vec us b) = conv_vec us (zipw f a b).
Proof. intros H. unfold conv_vec. induction us as [|c t IH]; intros [|x a] [|y b] Ha Hb; cbn in *; auto; try discriminate. rewrite H, IH by lia. reflexivity. Qed.
Lemma cv_sub a us : (forall c, In c us -> fst c = a) -> forall v w, length v = length us -> length w = length us ->
  zipw nsub (conv_vec us v) (conv_vec us w) = map (sc a) (zipw nsub v w).
Proof.
  unfold conv_vec. induction us as [|c t IH]; intros H [|x v] [|y w] Hv Hw; cbn [zipw map length] in *; auto; try discriminate.
  rewrite conv_sub, (H c) by (left; reflexivity). f_equal. apply IH; try lia. intros c' Hc'. apply H. right. exact Hc'.
Qed.
Lemma cv_drop us : forall v r, drop_at r (conv_vec us v) = conv_vec (drop_at r us) (drop_at r v).
Proof.
  unfold conv_vec. induction us as [|c t IH]; intros v r.
  - destruct r; reflexivity.
  - destruct v as [|x v]; [destruct r; cbn; [destruct t|]; reflexivity|]. destruct r; [reflexivity|]. cbn. f_equal. apply IH.
Qed.
Lemma drop_proper us r : proper_units us -> proper_units (drop_at r us).
Proof. intros H. revert r. induction H as [|c t Hc H IH]; intros [|r]; cbn; try constructor; auto. apply IH. Qed.
Lemma common_exists us : proper_units us -> common_factor us -> exists a, 0 < a /\ forall c, In c us -> fst c = a.
Proof.
  intros HU HC. destruct us as [|c t]; [exists 1; split; [lra|intros ? []]|]. exists (fst c). inversion HU; subst. split; [assumption|].
  intros c' H'. apply HC; [exact H'|left; reflexivity].
Qed.

(** ** The computations of the method *)
Definition rr {A B} (P : A -> B -> Prop) (r1 : res A) (r2 : res B) : Prop :=
  match r1, r2 with Ok a, Ok b => P a b | Raise e1, Raise e2 => e1 = e2 | _, _ => False end.
Section Conv2.
  Context (us : list unit_change) (HU : proper_units us).
  Let k := length us.
  Notation cv := (conv_vec us).
  Notation cm := (conv_rows us).

  Lemma cv_bcast {A} (f : XR -> XR -> A) a b : (forall c x y, 0 < fst c -> f (conv c x) (conv c y) = f x y) -> length a = k -> length b = k ->
    bcast2 f (cv a) (cv b) = bcast2 f a b.
  Proof. intros H Ha Hb. unfold bcast2. rewrite !cv_length by assumption. rewrite Ha, Hb, !Nat.eqb_refl. f_equal. apply cv_zipw; auto. Qed.
  Lemma cm_take m l : take (cm m) l = rmap cm (take m l).
  Proof. exact (take_map cv m l). Qed.
  Lemma take_matrix (m : list (list XR)) l r : is_matrix k m -> take m l = Ok r -> is_matrix k r.
  Proof.
    intros Hm H. unfold take in H. apply rseq_ok in H. apply Forall_forall. intros row Hin. apply (in_map Ok) in Hin. rewrite <- H in Hin.
    apply in_map_iff in Hin. destruct Hin as (i & Ei & _). apply at_ok in Ei. apply nth_error_In in Ei. unfold is_matrix in Hm. rewrite Forall_forall in Hm. auto.
  Qed.

  Lemma rep_conv km1 km2 F idx np : same_clusters us km1 km2 -> is_matrix k F ->
    rr (fun z z' => z' = cm z /\ is_matrix k z) (en_representatives km1 F idx np) (en_representatives km2 (cm F) idx np).
  Proof.
    intros HK HF. unfold en_representatives. rewrite cm_take. destruct (take F (idx_list idx)) as [rows|e] eqn:E; [|reflexivity]. cbn [rmap rbind].
    apply take_matrix in E; [|exact HF]. destruct (np <? _)%Z; [|split; [reflexivity|exact E]].
    rewrite HK by exact E. destruct (km1 rows np) as [cl|e]; [|reflexivity]. cbn [rbind]. rewrite cm_take.
    destruct (take rows cl) as [z|e] eqn:E2; [|reflexivity]. cbn [rmap rr]. split; [reflexivity|]. eapply take_matrix; eauto.
  Qed.
  Lemma inter_conv p zb n : length p = k -> is_matrix k zb ->
    rr (fun z z' => z' = cm z /\ is_matrix k z) (en_intermediate p zb n) (en_intermediate (cv p) (cm zb) n).
  Proof.
    intros Hp Hz. unfold en_intermediate. destruct (Z.eqb_spec n 0) as [->|Hn]; [reflexivity|].
    set (w1 := ndiv (nofZ (n - 1)) (nofZ n)). set (w2 := ndiv (nofZ 1) (nofZ n)).
    assert (C : forall (a b : list XR), zipw nadd (map (nmul w1) a) (map (nmul w2) b) = zipw (fun x y => nadd (nmul w1 x) (nmul w2 y)) a b).
    { induction a as [|x a IH]; intros [|y b]; cbn [map zipw]; auto. rewrite IH. reflexivity. }
    assert (G : forall z, length z = k -> exists v, bcast2 nadd (vscale w1 p) (vscale w2 z) = Ok v /\ bcast2 nadd (vscale w1 (cv p)) (vscale w2 (cv z)) = Ok (cv v) /\ length v = k).
    { intros z Hl. exists (zipw (fun x y => nadd (nmul w1 x) (nmul w2 y)) p z). unfold bcast2, vscale. rewrite !map_length, !cv_length by assumption. rewrite Hp, Hl, !Nat.eqb_refl, !C.
      split; [reflexivity|]. split.
      - f_equal. apply cv_zipw_up; auto. intros c x y. apply conv_comb. exact Hn.
      - rewrite zipw_length. transitivity (Nat.min k k); [f_equal; auto|apply Nat.min_id]. }
    clear C. induction Hz as [|z zs Hl Hz IH]; [split; [reflexivity|constructor]|]. cbn [conv_rows map rseq].
    destruct (G z Hl) as (v & E1 & E2 & E3). rewrite E1, E2. cbn [rbind]. unfold conv_rows in IH.
    destruct (rseq (map (fun zb => bcast2 nadd (vscale w1 p) (vscale w2 zb)) zs)) as [r1|e1], (rseq (map (fun zb => bcast2 nadd (vscale w1 (cv p)) (vscale w2 zb)) (map cv zs))) as [r2|e2]; cbn [rr] in IH; try contradiction; [|exact IH].
    destruct IH as [-> IH]. cbn [rbind rr]. split; [reflexivity|constructor; auto].
  Qed.
  Lemma cell_conv F p r : is_matrix k F -> length p = k -> (r < k)%nat -> en_cell (cm F) (cv p) r = map (conv (nth r us u0)) (en_cell F p r).
  Proof.
    intros HF Hp Hr. unfold en_cell. induction HF as [|row m H1 H2 IH]; [reflexivity|]. cbn [conv_rows map filter].
    assert (E : all_le (drop_at r (cv row)) (drop_at r (cv p)) = all_le (drop_at r row) (drop_at r p)).
    { unfold all_le. rewrite !cv_drop. rewrite cv_zipw; auto; [apply drop_proper; exact HU|intros; apply conv_leb; assumption| |]; rewrite !drop_len; fold k; lia. }
    unfold conv_rows in IH. rewrite E. clear E. destruct (all_le (drop_at r row) (drop_at r p)); [|exact IH]. cbn [map]. f_equal; [|exact IH]. apply cv_nth. exact H1.
  Qed.
  Lemma nth_proper r : (r < k)%nat -> 0 < fst (nth r us u0).
  Proof. intros H. unfold proper_units in HU. rewrite Forall_forall in HU. apply HU, nth_In, H. Qed.
  Definition cell_bounds F p r : res (XR * XR) := do lo <- npmin (en_cell F p r); do hi <- npmax (en_cell F p r); Ok (lo, hi).
  Lemma cell_bounds_conv F p r : is_matrix k F -> length p = k -> (r < k)%nat ->
    cell_bounds (cm F) (cv p) r = rmap (fun q => (conv (nth r us u0) (fst q), conv (nth r us u0) (snd q))) (cell_bounds F p r).
  Proof.
    intros HF Hp Hr. unfold cell_bounds. rewrite cell_conv, conv_min, conv_max by (auto; apply nth_proper; exact Hr).
    destruct (npmin (en_cell F p r)); [|reflexivity]. cbn [rmap rbind]. destruct (npmax (en_cell F p r)); reflexivity.
  Qed.
  Lemma rseq_conv (f g : nat -> res (XR * XR)) : forall n n0, (n0 + n <= k)%nat ->
    (forall r, (r < k)%nat -> f r = rmap (fun p => (conv (nth r us u0) (fst p), conv (nth r us u0) (snd p))) (g r)) ->
    rr (fun bs bs' => map fst bs' = conv_vec (skipn n0 us) (map fst bs) /\ map snd bs' = conv_vec (skipn n0 us) (map snd bs) /\ length bs = n) (rseq (map g (seq n0 n))) (rseq (map f (seq n0 n))).
  Proof.
    induction n as [|n IH]; intros n0 Hn H.
    - cbn. unfold conv_vec. destruct (skipn n0 us); auto.
    - cbn [seq map rseq]. rewrite (H n0) by lia. specialize (IH (S n0) ltac:(lia) H).
      assert (SK : skipn n0 us = nth n0 us u0 :: skipn (S n0) us).
      { clear -Hn. unfold k in Hn. revert n0 Hn. induction us as [|c u IHu]; intros [|n0] Hn; cbn in *; try lia; auto. apply IHu. lia. }
      destruct (g n0) as [p|e0]; cbn [rmap rbind]; [|reflexivity].
      destruct (rseq (map g (seq (S n0) n))) as [bs0|e0], (rseq (map f (seq (S n0) n))) as [bs1|e1]; cbn [rr] in IH; try contradiction; cbn [rbind]; [|exact IH].
      destruct IH as (E1 & E2 & E3). cbn [rr map fst snd length]. rewrite SK. unfold conv_vec in *. split; [exact (f_equal (cons (conv (nth n0 us u0) (fst p))) E1)|split; [exact (f_equal (cons (conv (nth n0 us u0) (snd p))) E2)|exact (f_equal S E3)]].
  Qed.
  Lemma bounds1_conv F p : is_matrix k F -> length p = k ->
    rr (fun b b' => b' = (cv (fst b), cv (snd b)) /\ length (fst b) = k /\ length (snd b) = k) (en_bounds1 F k p) (en_bounds1 (cm F) k (cv p)).
  Proof.
    intros HF Hp. unfold en_bounds1. rewrite !cv_length by assumption. rewrite Hp, !Nat.eqb_refl. cbn [negb].
    pose proof (rseq_conv (cell_bounds (cm F) (cv p)) (cell_bounds F p) k 0 ltac:(lia) ltac:(intros; apply cell_bounds_conv; assumption)) as H.
    change (rr (fun b b' => b' = (cv (fst b), cv (snd b)) /\ length (fst b) = k /\ length (snd b) = k)
      (do cells <- rseq (map (cell_bounds F p) (seq 0 k)); Ok (map fst cells, map snd cells))
      (do cells <- rseq (map (cell_bounds (cm F) (cv p)) (seq 0 k)); Ok (map fst cells, map snd cells))).
    destruct (rseq (map (cell_bounds F p) (seq 0 k))) as [bs|e], (rseq (map (cell_bounds (cm F) (cv p)) (seq 0 k))) as [bs'|e']; cbn [rr] in H; try contradiction; cbn [rbind rr]; [|exact H].
    destruct H as (E1 & E2 & E3). cbn [skipn] in E1, E2. rewrite E1, E2. cbn [fst snd]. rewrite !map_length. auto.
  Qed.
  Lemma bounds_conv F ps : is_matrix k F -> is_matrix k ps ->
    rr (fun b b' => b' = (cm (fst b), cm (snd b)) /\ is_matrix k (fst b) /\ is_matrix k (snd b)) (en_bounds F k ps) (en_bounds (cm F) k (cm ps)).
  Proof.
    intros HF Hp. unfold en_bounds.
    assert (H : rr (fun bs bs' => bs' = map (fun b => (cv (fst b), cv (snd b))) bs /\ Forall (fun b => length (fst b) = k /\ length (snd b) = k) bs)
                   (rseq (map (en_bounds1 F k) ps)) (rseq (map (en_bounds1 (cm F) k) (cm ps)))).
    { induction Hp as [|p ps H1 H2 IH]; [split; [reflexivity|constructor]|]. cbn [conv_rows map rseq]. pose proof (bounds1_conv F p HF H1) as B.
      destruct (en_bounds1 F k p) as [b|e], (en_bounds1 (cm F) k (cv p)) as [b'|e']; cbn [rr] in B; try contradiction; cbn [rbind]; [|exact B].
      unfold conv_rows in IH at 2. destruct (rseq (map (en_bounds1 F k) ps)) as [bs|e], (rseq (map (en_bounds1 (cm F) k) (map cv ps))) as [bs'|e']; cbn [rr] in IH; try contradiction; cbn [rbind rr]; [|exact IH].
      destruct B as (-> & B1 & B2), IH as (-> & IH). split; [reflexivity|constructor; auto]. }
    destruct (rseq (map (en_bounds1 F k) ps)) as [bs|e], (rseq (map (en_bounds1 (cm F) k) (cm ps))) as [bs'|e']; cbn [rr] in H; try contradiction; cbn [rbind rr fst snd]; [|exact H].
    destruct H as (-> & H). unfold conv_rows. rewrite !map_map. split; [f_equal; apply map_ext; reflexivity|].
    split; apply Forall_map; eapply Forall_impl; try exact H; intros b Hb; apply Hb.
  Qed.
  Lemma subs_conv (ps : list (list XR)) nd : is_matrix k ps -> length nd = k ->
    exists a a', rseq (map (fun z => bcast2 nsub z nd) ps) = Ok a /\ rseq (map (fun z => bcast2 nsub z (cv nd)) (cm ps)) = Ok a' /\ length a = length ps /\ length a' = length ps /\
      (forall f, 0 < f -> (forall c, In c us -> fst c = f) -> a' = map (map (sc f)) a).
  Proof.
    intros Hp Hn. induction Hp as [|p ps H1 H2 IH]; [exists [], []; repeat split; auto|]. destruct IH as (a & a' & E1 & E2 & L1 & L2 & H).
    exists (zipw nsub p nd :: a), (zipw nsub (cv p) (cv nd) :: a'). cbn [conv_rows map rseq]. unfold conv_rows in E2. rewrite E1, E2.
    unfold bcast2. rewrite !cv_length by assumption. rewrite H1, Hn, !Nat.eqb_refl. cbn [rbind length]. repeat split; auto.
    intros f Hf HC. cbn [map]. rewrite (H f Hf HC). f_equal. apply cv_sub; auto.
  Qed.
  Lemma dist_conv ps zb nd : is_matrix k ps -> is_matrix k zb -> length nd = k ->
    rr (fun d d' => same_if us d' d) (en_distances ps zb nd) (en_distances (cm ps) (cm zb) (cv nd)).
  Proof.
    intros Hp Hz Hn. unfold en_distances. destruct (subs_conv ps nd Hp Hn) as (a & a' & E1 & E2 & L1 & L2 & H), (subs_conv zb nd Hz Hn) as (b & b' & E3 & E4 & L3 & L4 & H').
    rewrite E1, E2, E3, E4. cbn [rbind]. set (x := map vnorm a). set (y := map vnorm b). set (x' := map vnorm a'). set (y' := map vnorm b').
    assert (Lx : length x = length x') by (unfold x, x'; rewrite !map_length; lia). assert (Ly : length y = length y') by (unfold y, y'; rewrite !map_length; lia).
    assert (HX : same_if us (bcast2 (fun x y => ndiv x y) x' y') (bcast2 (fun x y => ndiv x y) x y)).
    { intros HC. destruct (common_exists us HU HC) as (f & Hf & HF). pose proof (H f Hf HF) as A. pose proof (H' f Hf HF) as B.
      assert (Nm : forall l : list (list XR), map vnorm (map (map (sc f)) l) = map (sc f) (map vnorm l)).
      { intros l. rewrite !map_map. apply map_ext. intros v. apply sc_norm. exact Hf. }
      unfold x', y'. rewrite A, B, !Nm. fold x y. clearbody x y. clear -Hf. unfold bcast2. rewrite !map_length. destruct (Nat.eqb (length x) (length y)).
      - f_equal. revert y. induction x as [|p x IH]; intros [|q y]; cbn [map zipw]; auto. rewrite sc_div, IH by exact Hf. reflexivity.
      - assert (M1 : forall (p : XR) (l : list XR), map (fun y : XR => ndiv (sc f p) y) (map (sc f) l) = map (fun y : XR => ndiv p y) l).
        { intros p l. rewrite map_map. apply map_ext. intros z. apply sc_div. exact Hf. }
        assert (M2 : forall (q : XR) (l : list XR), map (fun x : XR => ndiv x (sc f q)) (map (sc f) l) = map (fun x : XR => ndiv x q) l).
        { intros q l. rewrite map_map. apply map_ext. intros z. apply sc_div. exact Hf. }
        destruct x as [|p [|p2 x]], y as [|q [|q2 y]]; try reflexivity; first [exact (f_equal Ok (M1 p _))|exact (f_equal Ok (M2 q _))]. }
    unfold same_if in *. destruct (bcast2 (fun x y => ndiv x y) x y) as [q|e] eqn:E5, (bcast2 (fun x y => ndiv x y) x' y') as [q'|e'] eqn:E6; cbn [rbind rr]; clearbody x y x' y'.
    - intros HC. apply HX in HC. injection HC as ->. reflexivity.
    - exfalso. unfold bcast2 in E5, E6. rewrite <- Lx, <- Ly in E6. destruct (Nat.eqb (length x) (length y)); [discriminate|].
      destruct x as [|? [|? ?]], y as [|? [|? ?]], x' as [|? [|? ?]], y' as [|? [|? ?]]; try discriminate.
    - exfalso. unfold bcast2 in E5, E6. rewrite <- Lx, <- Ly in E6. destruct (Nat.eqb (length x) (length y)); [discriminate|].
      destruct x as [|? [|? ?]], y as [|? [|? ?]], x' as [|? [|? ?]], y' as [|? [|? ?]]; try discriminate.
    - unfold bcast2 in E5, E6. destruct (Nat.eqb (length x) (length y)); [discriminate|]. destruct (Nat.eqb (length x') (length y')); [discriminate|].
      assert (e = ValueErr) by (destruct x as [|? [|? ?]], y as [|? [|? ?]]; congruence). assert (e' = ValueErr) by (destruct x' as [|? [|? ?]], y' as [|? [|? ?]]; congruence). congruence.
  Qed.
  Lemma reach_conv F lb ub : is_matrix k F -> length lb = k -> length ub = k -> en_reachable (cm F) (cv lb) (cv ub) = en_reachable F lb ub.
  Proof.
    intros HF Hl Hu. unfold en_reachable, conv_rows. rewrite map_map. f_equal. f_equal. apply map_ext_in. intros row Hr.
    assert (Hk : length row = k) by (unfold is_matrix in HF; rewrite Forall_forall in HF; auto).
    unfold row_in_box. rewrite !cv_bcast; auto; intros; apply conv_leb; assumption.
  Qed.
  Lemma max_index_conv ps : is_matrix k ps -> en_max_index (cm ps) = en_max_index ps.
  Proof.
    intros H. destruct ps as [|p [|p2 ps]]; [reflexivity| |]; unfold conv_rows; cbn [map en_max_index].
    - assert (E : length p = k) by (inversion H; assumption). pose proof (cv_length us p E) as E'. fold k in E'. rewrite E', E. reflexivity.
    - cbn [length]. rewrite map_length. reflexivity.
  Qed.
End Conv2.
