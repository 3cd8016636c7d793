(** * NAUTILUS Navigator: constants added to the objectives (C111), proofs. *)
From Coq Require Import ZArith Reals Lra List Bool Lia.
From Verif Require Import Num NumXR Py Np Spec NpFacts XRFacts PAsf MNavigator SNavigator SNavShift PNavigator PNavigator2 PNavigator3 PNavigator6.
Import ListNotations.
Open Scope R_scope.

(** ** Numbers *)
Lemma up_leb t (x y : XR) : nleb (up t x) (up t y) = nleb x y.
Proof.
  destruct x as [| | |a], y as [| | |b]; try reflexivity. cbn [up nleb XR]. unfold xleb, rleb.
  destruct (Rle_dec (a + t) (b + t)), (Rle_dec a b); auto; lra.
Qed.
Lemma up_ltb t (x y : XR) : nltb (up t x) (up t y) = nltb x y.
Proof. pose proof (up_leb t x y) as A. pose proof (up_leb t y x) as B. cbn [nltb nleb XR] in *. unfold xltb. rewrite A, B. reflexivity. Qed.
Lemma up_nan t (x : XR) : nisnan (up t x) = nisnan x.
Proof. destruct x as [| | |a]; try reflexivity. cbn [up]. rewrite !xisnan_fin. reflexivity. Qed.
Lemma up_sub t (x y : XR) : nsub (up t x) (up t y) = nsub x y.
Proof. destruct x as [| | |a], y as [| | |b]; try reflexivity. cbn. f_equal. lra. Qed.
Lemma up_sub_r t (x : XR) e : nsub (up t x) (Fin e : XR) = up t (nsub x (Fin e : XR)).
Proof. destruct x as [| | |a]; try reflexivity. cbn. f_equal. lra. Qed.
Lemma up_comb t (z : Z) (x y : XR) : (z <> 0)%Z ->
  nadd (nmul (ndiv (nofZ (z - 1)) (nofZ z)) (up t x)) (nmul (ndiv (nofZ 1) (nofZ z)) (up t y)) =
  up t (nadd (nmul (ndiv (nofZ (z - 1)) (nofZ z)) x) (nmul (ndiv (nofZ 1) (nofZ z)) y)).
Proof.
  intros H. assert (Hr : IZR z <> 0) by (apply not_0_IZR; exact H).
  cbn [nofZ XR ndiv]. rewrite !xdiv_fin by exact Hr. rewrite minus_IZR.
  set (w1 := (IZR z - 1) / IZR z). set (w2 := 1 / IZR z).
  assert (W : w1 + w2 = 1). { unfold w1, w2. field. exact Hr. }
  cbn [nadd nmul XR]. destruct x as [| | |a], y as [| | |b]; cbn [up]; unfold xmul;
    try (destruct (xsign w1), (xsign w2); cbn; reflexivity); try (cbn; reflexivity).
  cbn. f_equal. nra.
Qed.

(** ** Vectors *)
Lemma moved_length t : forall v, length (moved t v) = length v.
Proof. induction t as [|c t IH]; intros [|x v]; cbn; auto. Qed.
Lemma moved_nth t : forall v r, length v = length t -> nth r (moved t v) XNan = up (nth r t 0) (nth r v XNan).
Proof. induction t as [|c t IH]; intros [|x v] [|r] H; cbn in *; auto; try discriminate. Qed.
Lemma moved_nth_error t : forall v r, length v = length t -> nth_error (moved t v) r = option_map (up (nth r t 0)) (nth_error v r).
Proof. induction t as [|c t IH]; intros [|x v] [|r] H; cbn in *; auto; try discriminate. Qed.
Lemma moved_nan t : forall v : list XR, moved t (map (fun _ => XNan) v) = map (fun _ => XNan) v.
Proof. induction t as [|c t IH]; intros [|x v]; cbn; auto. f_equal. auto. Qed.
Lemma moved_zipw {A} (f : XR -> XR -> A) t : (forall c x y, f (up c x) (up c y) = f x y) -> forall a b, length a = length t -> length b = length t ->
  zipw f (moved t a) (moved t b) = zipw f a b.
Proof. intros H. induction t as [|c t IH]; intros [|x a] [|y b] Ha Hb; cbn in *; auto; try discriminate. rewrite H, IH by lia. reflexivity. Qed.
Lemma moved_zipw_up (f : XR -> XR -> XR) t : (forall c x y, f (up c x) (up c y) = up c (f x y)) -> forall a b, length a = length t -> length b = length t ->
  zipw f (moved t a) (moved t b) = moved t (zipw f a b).
Proof. intros H. induction t as [|c t IH]; intros [|x a] [|y b] Ha Hb; cbn in *; auto; try discriminate. rewrite H, IH by lia. reflexivity. Qed.
Lemma moved_bcast {A} (f : XR -> XR -> A) t a b : (forall c x y, f (up c x) (up c y) = f x y) -> length a = length t -> length b = length t ->
  bcast2 f (moved t a) (moved t b) = bcast2 f a b.
Proof. intros H Ha Hb. unfold bcast2. rewrite !moved_length, Ha, Hb, Nat.eqb_refl. f_equal. apply moved_zipw; auto. Qed.
Lemma moved_drop t : forall v r, length v = length t -> drop_at r (moved t v) = moved (drop_at r t) (drop_at r v).
Proof. induction t as [|c t IH]; intros [|x v] [|r] H; cbn in *; auto; try discriminate. f_equal. apply IH. lia. Qed.
Lemma drop_len {A} (v : list A) : forall r, (r < length v)%nat -> length (drop_at r v) = (length v - 1)%nat.
Proof. induction v as [|x v IH]; intros [|r] H; cbn in *; try lia. rewrite IH by lia. lia. Qed.
Lemma to_floats_moved t : forall b, to_floats (moved_opts t b) = moved t (to_floats b).
Proof. induction t as [|c t IH]; intros [|x b]; [reflexivity..|]. cbn [moved_opts to_floats map moved]. unfold to_floats in IH. rewrite IH. destruct x; reflexivity. Qed.
Lemma moved_opts_length t : forall b, length (moved_opts t b) = length b.
Proof. induction t as [|c t IH]; intros [|x b]; cbn; auto. Qed.

(** ** Reductions *)
Lemma up_fold_min t : forall l (x : XR), fold_left nminimum (map (up t) l) (up t x) = up t (fold_left nminimum l x).
Proof.
  induction l as [|y l IH]; intros x; cbn [map fold_left]; auto. rewrite <- IH. f_equal. unfold nminimum. rewrite up_leb, up_nan. destruct (_ || _); reflexivity.
Qed.
Lemma up_fold_max t : forall l (x : XR), fold_left nmaximum (map (up t) l) (up t x) = up t (fold_left nmaximum l x).
Proof.
  induction l as [|y l IH]; intros x; cbn [map fold_left]; auto. rewrite <- IH. f_equal. unfold nmaximum. rewrite up_leb, up_nan. destruct (_ || _); reflexivity.
Qed.
Lemma up_drop_nan t (l : list XR) : drop_nan (map (up t) l) = map (up t) (drop_nan l).
Proof. induction l as [|x l IH]; cbn [map drop_nan filter]; auto. rewrite up_nan. unfold drop_nan in IH. destruct (negb (nisnan x)); cbn [map]; rewrite IH; reflexivity. Qed.
Lemma up_nanmin t (l : list XR) : npnanmin (map (up t) l) = rmap (up t) (npnanmin l).
Proof.
  destruct l as [|x l]; [reflexivity|]. unfold npnanmin. cbn [map]. change (up t x :: map (up t) l) with (map (up t) (x :: l)).
  rewrite up_drop_nan. destruct (drop_nan (x :: l)) as [|y m]; [reflexivity|]. cbn [map npmin rmap]. rewrite up_fold_min. reflexivity.
Qed.
Lemma up_nanmax t (l : list XR) : npnanmax (map (up t) l) = rmap (up t) (npnanmax l).
Proof.
  destruct l as [|x l]; [reflexivity|]. unfold npnanmax. cbn [map]. change (up t x :: map (up t) l) with (map (up t) (x :: l)).
  rewrite up_drop_nan. destruct (drop_nan (x :: l)) as [|y m]; [reflexivity|]. cbn [map npmax rmap]. rewrite up_fold_max. reflexivity.
Qed.
Lemma at_map {A B} (f : A -> B) l i : at_ (map f l) i = rmap f (at_ l i).
Proof. unfold at_. rewrite nth_error_map. destruct (nth_error l i); reflexivity. Qed.
Lemma take_map {A B} (f : A -> B) m l : take (map f m) l = rmap (map f) (take m l).
Proof.
  unfold take. induction l as [|i l IH]; [reflexivity|]. cbn [map rseq]. rewrite at_map. destruct (at_ m i); [|reflexivity]. cbn [rmap rbind]. rewrite IH.
  destruct (rseq (map (at_ m) l)); reflexivity.
Qed.

(** ** The computations of the method *)
Section Moves.
  Context (asf : @asf_fn XR) (t : list R).
  Hypothesis HA : ignores_constants asf.
  Let k := length t.
  Notation mm := (moved_rows t).

  Lemma mat_moved m : is_matrix k m -> is_matrix k (mm m).
  Proof. intros H. apply Forall_map. eapply Forall_impl; [|exact H]. intros r Hr. rewrite moved_length. exact Hr. Qed.
  Lemma bany_moved a b : length a = k -> length b = k -> bany (fun x y => nltb y x) (moved t a) (moved t b) = bany (fun x y => nltb y x) a b.
  Proof. intros Ha Hb. unfold bany. rewrite moved_bcast; auto. intros. apply up_ltb. Qed.
  Lemma bmask_moved m bounds : is_matrix k m -> length bounds = k ->
    rseq (map (fun row => bany (fun x y => nltb y x) row (moved t bounds)) (mm m)) = rseq (map (fun row => bany (fun x y => nltb y x) row bounds) m).
  Proof.
    intros Hm Hb. unfold moved_rows. rewrite map_map. f_equal. apply map_ext_in. intros row Hr. apply bany_moved; auto.
    unfold is_matrix in Hm. rewrite Forall_forall in Hm. auto.
  Qed.
  Lemma nan_rows_moved mask : forall m, nan_rows mask (mm m) = mm (nan_rows mask m).
  Proof.
    unfold nan_rows, moved_rows. induction mask as [|b mask IH]; intros [|row m]; cbn [zipw map]; auto. rewrite IH. f_equal. destruct b; auto.
    unfold nan_row. change (@nnan XR) with XNan. rewrite moved_nan. generalize (moved_length t row). generalize (moved t row). clear. induction row as [|x row IH]; intros [|y l] H; cbn in *; auto; try discriminate. rewrite IH; auto.
  Qed.

  Lemma take_mm m l : take (mm m) l = rmap mm (take m l).
  Proof. exact (take_map (moved t) m l). Qed.
  Lemma solve_moved F idx ref ideal nadir bounds : is_matrix k F -> length ref = k -> length ideal = k -> length nadir = k -> length bounds = k ->
    nv_solve asf [mm F] 0%nat idx (moved t ref) (moved t ideal) (moved t nadir) (moved t bounds) =
    rmap (fun r => (map mm (fst r), snd r)) (nv_solve asf [F] 0%nat idx ref ideal nadir bounds).
  Proof.
    intros HF Hr Hi Hn Hb. unfold nv_solve. cbn [h_get at_ nth_error rbind h_new app length].
    rewrite take_mm. destruct (take F (idx_list idx)) as [rows|e]; [|reflexivity]. cbn [rmap rbind].
    replace (length (mm F)) with (length F) by (unfold moved_rows; rewrite map_length; reflexivity).
    set (mask := map negb _). rewrite nan_rows_moved. unfold h_set, set_. cbn [set_nth rbind].
    rewrite bmask_moved by (auto; apply nan_rows_matrix; exact HF).
    destruct (rseq _) as [bm|e]; [|reflexivity]. cbn [rbind set_nth]. rewrite nan_rows_moved.
    set (m2 := nan_rows bm (nan_rows mask F)). assert (Hm2 : is_matrix k m2) by (apply nan_rows_matrix, nan_rows_matrix; exact HF).
    replace (map (fun row => asf (moved t nadir) (moved t ideal) row (moved t ref)) (mm m2)) with (map (fun row => asf nadir ideal row ref) m2).
    - destruct (npnanargmin _); reflexivity.
    - unfold moved_rows. rewrite map_map. apply map_ext_in. intros row Hin. symmetry. apply HA; auto.
      unfold is_matrix in Hm2. rewrite Forall_forall in Hm2. auto.
  Qed.

  Lemma nav_moved proj nav z : length proj = k -> length nav = k -> nv_nav_point (moved t proj) (moved t nav) z = rmap (moved t) (nv_nav_point proj nav z).
  Proof.
    intros Hp Hn. unfold nv_nav_point. destruct (Z.eqb_spec z 0) as [->|Hz]; [reflexivity|]. unfold bcast2, vscale.
    rewrite !map_length, !moved_length, Hp, Hn, Nat.eqb_refl. cbn [rmap]. f_equal.
    set (w1 := ndiv (nofZ (z - 1)) (nofZ z)). set (w2 := ndiv (nofZ 1) (nofZ z)).
    assert (C : forall (a b : list XR), zipw nadd (map (nmul w1) a) (map (nmul w2) b) = zipw (fun x y => nadd (nmul w1 x) (nmul w2 y)) a b).
    { induction a as [|x a IH]; intros [|y b]; cbn [map zipw]; auto. rewrite IH. reflexivity. }
    rewrite !C. apply moved_zipw_up; auto. intros c x y. apply up_comb. exact Hz.
  Qed.
  Lemma nav_len (proj nav : list XR) z v : length proj = k -> length nav = k -> nv_nav_point proj nav z = Ok v -> length v = k.
  Proof.
    intros Hp Hn H. unfold nv_nav_point in H. destruct (Z.eqb z 0); [discriminate|]. unfold bcast2, vscale in H.
    rewrite !map_length, Hp, Hn, Nat.eqb_refl in H. injection H as <-. rewrite zipw_length, !map_length. transitivity (Nat.min k k); [f_equal; auto|apply Nat.min_id].
  Qed.

  Lemma cell_moved m nav r : is_matrix k m -> length nav = k -> (r < k)%nat -> nv_cell (mm m) (moved t nav) r = map (up (nth r t 0)) (nv_cell m nav r).
  Proof.
    intros Hm Hn Hr. unfold nv_cell. induction m as [|row m IH]; [reflexivity|]. inversion Hm as [|? ? H1 H2]; subst. cbn [moved_rows map filter].
    specialize (IH H2).
    assert (E : all_le (drop_at r (moved t row)) (drop_at r (moved t nav)) = all_le (drop_at r row) (drop_at r nav)).
    { unfold all_le. rewrite !moved_drop by auto. rewrite moved_zipw; auto; [intros; apply up_leb| |]; rewrite !drop_len; lia. }
    unfold moved_rows in IH. rewrite E. clear E. destruct (all_le (drop_at r row) (drop_at r nav)); [|exact IH]. cbn [map]. f_equal; [|exact IH]. apply moved_nth. exact H1.
  Qed.
  Lemma bound1_moved m nav plb pub r : is_matrix k m -> length nav = k -> length plb = k -> length pub = k -> (r < k)%nat ->
    nv_bound1 (mm m) (moved t nav) (moved t plb) (moved t pub) r = rmap (fun p => (up (nth r t 0) (fst p), up (nth r t 0) (snd p))) (nv_bound1 m nav plb pub r).
  Proof.
    intros Hm Hn Hl Hu Hr. unfold nv_bound1. rewrite cell_moved by auto. destruct (nv_cell m nav r) as [|x l] eqn:E.
    - cbn [map]. unfold at_. rewrite !moved_nth_error by auto. destruct (nth_error plb r); [|reflexivity]. cbn [option_map rbind]. destruct (nth_error pub r); reflexivity.
    - cbn [map]. change (up (nth r t 0) x :: map (up (nth r t 0)) l) with (map (up (nth r t 0)) (x :: l)). rewrite up_nanmin, up_nanmax.
      destruct (npnanmin (x :: l)); [|reflexivity]. cbn [rmap rbind]. destruct (npnanmax (x :: l)); reflexivity.
  Qed.

  Lemma rseq_moved (f g : nat -> res (XR * XR)) (n0 : nat) : forall n, (n0 + n <= k)%nat ->
    (forall r, (r < k)%nat -> f r = rmap (fun p => (up (nth r t 0) (fst p), up (nth r t 0) (snd p))) (g r)) ->
    (forall bs, rseq (map g (seq n0 n)) = Ok bs -> exists bs', rseq (map f (seq n0 n)) = Ok bs' /\ map fst bs' = moved (skipn n0 t) (map fst bs) /\ map snd bs' = moved (skipn n0 t) (map snd bs)) /\
    (forall e, rseq (map g (seq n0 n)) = Raise e -> rseq (map f (seq n0 n)) = Raise e).
  Proof.
    intros n. revert n0. induction n as [|n IH]; intros n0 Hn H.
    - cbn. split; [|discriminate]. intros bs E. injection E as <-. exists []. split; [reflexivity|]. cbn. destruct (skipn n0 t); auto.
    - cbn [seq map rseq]. rewrite (H n0) by lia. destruct (IH (S n0) ltac:(lia) H) as [A B].
      assert (SK : skipn n0 t = nth n0 t 0 :: skipn (S n0) t).
      { clear -Hn. unfold k in Hn. revert n0 Hn. induction t as [|c u IHu]; intros [|n0] Hn; cbn in *; try lia; auto. apply IHu. lia. }
      destruct (g n0) as [p|e0]; cbn [rmap rbind]; [|split; [discriminate|auto]].
      destruct (rseq (map g (seq (S n0) n))) as [bs0|e0]; cbn [rbind].
      + destruct (A bs0 eq_refl) as (bs' & E1 & E2 & E3). rewrite E1. cbn [rbind]. split; [|discriminate].
        intros bs E. injection E as <-. eexists. split; [reflexivity|]. cbn [map fst snd]. rewrite SK. cbn [moved]. rewrite E2, E3. auto.
      + rewrite (B e0 eq_refl). cbn. split; [discriminate|auto].
  Qed.
  Definition mb (r : heap (list (list XR)) * (list XR * list XR)) := (map mm (fst r), (moved t (fst (snd r)), moved t (snd (snd r)))).
  Lemma bounds_moved F rows nav bounds plb pub : is_matrix k rows -> length nav = k -> length bounds = k -> length plb = k -> length pub = k ->
    nv_bounds [mm F; mm rows] 1%nat k (moved t nav) (moved t bounds) (moved t plb) (moved t pub) = rmap mb (nv_bounds [F; rows] 1%nat k nav bounds plb pub).
  Proof.
    intros Hm Hn Hb Hl Hu. unfold nv_bounds. cbn [h_get at_ nth_error rbind]. rewrite bmask_moved by auto.
    destruct (rseq (map (fun row => bany _ row bounds) rows)) as [bm|e]; [|reflexivity]. cbn [rbind]. rewrite nan_rows_moved. unfold h_set, set_. cbn [set_nth rbind].
    rewrite moved_length, Hn, Nat.eqb_refl. cbn [negb].
    set (m' := nan_rows bm rows). assert (Hm' : is_matrix k m') by (apply nan_rows_matrix; exact Hm).
    destruct (rseq_moved (nv_bound1 (mm m') (moved t nav) (moved t plb) (moved t pub)) (nv_bound1 m' nav plb pub) 0 k) as [A B]; [lia|intros r Hr; apply bound1_moved; auto|].
    destruct (rseq (map (nv_bound1 m' nav plb pub) (seq 0 k))) as [bs|e].
    - destruct (A bs eq_refl) as (bs' & E1 & E2 & E3). rewrite E1. cbn [rbind rmap mb fst snd map]. unfold mb. cbn [fst snd map]. rewrite E2, E3. reflexivity.
    - rewrite (B e eq_refl). reflexivity.
  Qed.
  Lemma bounds_len (F rows : list (list XR)) nav bounds plb pub h lb ub : nv_bounds [F; rows] 1%nat k nav bounds plb pub = Ok (h, (lb, ub)) -> length lb = k /\ length ub = k.
  Proof.
    unfold nv_bounds. cbn [h_get at_ nth_error rbind]. destruct (rseq _) as [bm|e]; [|discriminate]. cbn [rbind]. unfold h_set, set_. cbn [set_nth rbind].
    destruct (negb _); [discriminate|]. destruct (rseq (map _ (seq 0 k))) as [bs|e] eqn:E; [|discriminate]. cbn [rbind]. intros H. injection H as _ <- <-.
    rewrite !map_length. apply rseq_ok in E. apply (f_equal (@length _)) in E. rewrite !map_length, seq_length in E. auto.
  Qed.
  Lemma reachable_moved F lb ub : is_matrix k F -> length lb = k -> length ub = k -> nv_reachable (mm F) (moved t lb) (moved t ub) = nv_reachable F lb ub.
  Proof.
    intros HF Hl Hu. unfold nv_reachable, moved_rows. rewrite map_map. f_equal. f_equal. apply map_ext_in. intros row Hr.
    assert (Hk : length row = k) by (unfold is_matrix in HF; rewrite Forall_forall in HF; auto).
    unfold nv_row_in_box. rewrite !moved_bcast; auto; intros; apply up_leb.
  Qed.
  Lemma distance_moved nav proj nadir : length nav = k -> length proj = k -> length nadir = k -> nv_distance (moved t nav) (moved t proj) (moved t nadir) = nv_distance nav proj nadir.
  Proof. intros Hn Hp Hd. unfold nv_distance. rewrite !moved_bcast; auto; intros; apply up_sub. Qed.

  (** ** One step forward *)
  Definition ms (s : nv_state XR) : nv_state XR :=
    MkNS (mm (ns_front s)) (moved t (ns_ideal s)) (moved t (ns_nadir s)) (ns_vars s) (moved t (ns_lb s)) (moved t (ns_ub s)) (moved t (ns_bounds s)) (ns_idx s)
         (ns_step s) (ns_left s) (ns_dist s) (ns_speed s) (option_map (moved t) (ns_ref s)) (moved t (ns_nav s)) (ns_proj s).
  Definition mv (p : nv_state XR * res (nv_request XR)) := (ms (fst p), rmap (moved_request t) (snd p)).
  Lemma request_moved s : nv_request_of (ms s) = moved_request t (nv_request_of s).
  Proof. reflexivity. Qed.

  Definition sim {A B} (g : A -> B) (m1 : SE (nv_state XR) A) (m2 : SE (nv_state XR) B) (s : nv_state XR) : Prop :=
    m2 (ms s) = (ms (fst (m1 s)), rmap g (snd (m1 s))).
  Lemma sim_bind {A1 A2 B1 B2} (g : A1 -> A2) (h : B1 -> B2) m1 m2 f1 f2 s : sim g m1 m2 s ->
    (forall a s', m1 s = (s', Ok a) -> sim h (f1 a) (f2 (g a)) s') -> sim h (sbind m1 f1) (sbind m2 f2) s.
  Proof.
    unfold sim, sbind. intros E H. rewrite E. destruct (m1 s) as [s' [a|e]]; cbn [fst snd rmap]; [|reflexivity]. apply H. reflexivity.
  Qed.
  Lemma sim_lift {A B} (g : A -> B) r1 r2 s : r2 = rmap g r1 -> sim g (lift r1) (lift r2) s.
  Proof. intros ->. reflexivity. Qed.
  Lemma sim_mod f1 f2 s : f2 (ms s) = ms (f1 s) -> sim (fun u => u) (smod f1) (smod f2) s.
  Proof. unfold sim, smod. cbn [fst snd rmap]. intros ->. reflexivity. Qed.
  Lemma sim_get s : sim ms sget sget s.
  Proof. reflexivity. Qed.
  Lemma sim_ret {A B} (g : A -> B) a b s : b = g a -> sim g (sret a) (sret b) s.
  Proof. intros ->. reflexivity. Qed.

  Lemma forward_moved ref speed bounds s : wf k s -> length (ns_ideal s) = k -> length ref = k -> length bounds = k ->
    (forall r0, ns_ref s = Some r0 -> allclose (moved t ref) (moved t r0) = allclose ref r0) ->
    sim (moved_request t) (nv_forward asf ref speed bounds) (nv_forward asf (moved t ref) speed (moved t bounds)) s.
  Proof.
    intros W Hi Hr Hb Hc. pose proof W as [WF WN WL WU WB WV WI WC WP WS].
    assert (WR : forall i row, at_ (ns_front s) i = Ok row -> length row = k).
    { intros i row E. apply at_ok in E. apply nth_error_In in E. unfold is_matrix in WF. rewrite Forall_forall in WF. auto. }
    unfold nv_forward. eapply sim_bind; [apply sim_get|]. intros s0 s' E. unfold sget in E. injection E as <- <-.
    eapply (sim_bind (fun b => b)).
    { cbn [ns_step ms]. destruct (ns_step s =? 1)%Z; [apply sim_ret; reflexivity|]. eapply (sim_bind (moved t)).
      - apply sim_lift. cbn [ns_ref ms]. destruct (ns_ref s); reflexivity.
      - intros r0 s' E. apply lift_ok in E. destruct E as [-> E]. cbn [ns_ref] in E. destruct (ns_ref s) as [r1|] eqn:Er; [|discriminate]. injection E as <-.
        eapply (sim_bind (fun b => b)); [apply sim_lift; rewrite Hc by reflexivity; destruct (allclose ref r1); reflexivity|].
        intros b s' _. apply sim_ret. reflexivity. }
    intros again s' E.
    assert (s' = s) as ->.
    { destruct (ns_step s =? 1)%Z; [injection E as <- _; reflexivity|]. unfold sbind, lift in E. destruct (some_or _ _); [|discriminate].
      destruct (allclose ref _); [|discriminate]. injection E as <- _. reflexivity. }
    clear E. eapply (sim_bind (fun u => u)).
    { destruct again; [|apply sim_ret; reflexivity].
      eapply (sim_bind (fun u => u)).
      { cbn [ns_step ms]. destruct (ns_step s =? 1)%Z; [apply sim_mod; reflexivity|apply sim_ret; reflexivity]. }
      intros u s' _. eapply (sim_bind (fun r => (map mm (fst r), snd r))).
      { apply sim_lift. cbn [ns_front ns_idx ns_ideal ns_nadir ns_bounds ms]. apply solve_moved; auto. }
      intros r s'' E. eapply (sim_bind mm).
      { apply sim_lift. cbn [fst]. unfold h_get. exact (at_map mm (fst r) 0%nat). }
      intros f' s3 _. eapply (sim_bind (fun u => u)); [apply sim_mod; reflexivity|]. intros u1 s4 _. apply sim_mod. reflexivity. }
    intros u s1 E.
    assert (X : ns_front s1 = ns_front s /\ ns_nav s1 = ns_nav s /\ ns_left s1 = ns_left s /\ ns_nadir s1 = ns_nadir s /\ ns_idx s1 = ns_idx s /\ ns_lb s1 = ns_lb s /\ ns_ub s1 = ns_ub s).
    { destruct again; [|injection E as <- _; auto 10]. apply sbind_ok in E. destruct E as (u1 & s2 & E1 & E).
      assert (E2 : s2 = if (ns_step s =? 1)%Z then w_speed (Some speed) s else s) by (destruct (ns_step s =? 1)%Z; injection E1 as <-; reflexivity).
      apply sbind_ok in E. destruct E as (r & s3 & E3 & E). apply lift_ok in E3. destruct E3 as [-> E3]. destruct r as [h pi].
      apply nv_solve_ok in E3. destruct E3 as (Hh & _). apply sbind_ok in E. destruct E as (f' & s3 & E3 & E). apply lift_ok in E3. destruct E3 as [-> E3].
      cbn [fst] in E3. rewrite Hh in E3. injection E3 as <-. unfold sbind, smod in E. injection E as <- _. rewrite E2. cbn. destruct (ns_step s =? 1)%Z; cbn; auto 10. }
    clear E. destruct X as (X1 & X2 & X3 & X4 & X5 & X6 & X7).
    eapply sim_bind; [apply sim_get|]. intros s1' s1'' E. unfold sget in E. injection E as <- <-.
    eapply (sim_bind (fun i => i)); [apply sim_lift; cbn [ns_proj ms]; destruct (ns_proj s1); reflexivity|]. intros pi s1' E. apply lift_ok in E. destruct E as [-> E]. clear E.
    eapply (sim_bind (moved t)); [apply sim_lift; cbn [ns_front ms]; exact (at_map (moved t) (ns_front s1) pi)|].
    intros proj s1' E. apply lift_ok in E. destruct E as [-> E]. rewrite X1 in E. apply WR in E.
    eapply (sim_bind (moved t)); [apply sim_lift; cbn [ns_nav ns_left ms]; apply nav_moved; [exact E|rewrite X2; exact WV]|].
    intros nav s1' En. apply lift_ok in En. destruct En as [-> En]. apply nav_len in En; [|exact E|rewrite X2; exact WV].
    eapply (sim_bind (fun u => u)); [apply sim_mod; reflexivity|]. intros u1 s2 E2. unfold smod in E2. injection E2 as <- _.
    eapply (sim_bind mm); [apply sim_lift; cbn [ns_front ns_idx ms]; apply take_mm|].
    intros rows s2 Er. apply lift_ok in Er. destruct Er as [-> Er]. rewrite X1 in Er.
    assert (Hrows : is_matrix k rows).
    { apply Forall_forall. intros row Hin. unfold take in Er. apply rseq_ok in Er. apply (in_map Ok) in Hin. rewrite <- Er in Hin. apply in_map_iff in Hin.
      destruct Hin as (i & Ei & _). apply WR in Ei. exact Ei. }
    cbn [h_new app length]. eapply (sim_bind mb).
    { apply sim_lift. cbn [ns_front ns_nadir ns_lb ns_ub ms]. rewrite moved_length.
      replace (length (ns_nadir s1)) with k by (rewrite X4; auto). apply bounds_moved; auto; [rewrite X6|rewrite X7]; assumption. }
    intros b s2 Eb. apply lift_ok in Eb. destruct Eb as [-> Eb]. destruct b as [h [lb ub]].
    pose proof Eb as Eb'. replace (length (ns_nadir s1)) with k in Eb by (rewrite X4; auto). apply bounds_len in Eb.
    apply nv_bounds_ok in Eb'. destruct Eb' as (Hh & _).
    eapply (sim_bind mm). { apply sim_lift. unfold mb. cbn [fst]. exact (at_map mm h 0%nat). }
    intros f' s2 Ef. apply lift_ok in Ef. destruct Ef as [-> Ef]. cbn [fst] in Ef. rewrite Hh in Ef. injection Ef as <-.
    eapply (sim_bind (fun u => u)); [apply sim_mod; reflexivity|]. intros u2 s2 E2. unfold smod in E2. injection E2 as <- _.
    eapply (sim_bind (fun u => u)); [apply sim_mod; reflexivity|]. intros u3 s2 E2. unfold smod in E2. injection E2 as <- _.
    eapply sim_bind; [apply sim_get|]. intros s2 s2' E2. unfold sget in E2. injection E2 as <- <-.
    eapply (sim_bind (moved t)); [apply sim_lift; cbn [ns_front ms]; exact (at_map (moved t) _ pi)|].
    intros proj2 s2 E2. apply lift_ok in E2. destruct E2 as [-> E2]. cbn [ns_front w_front w_nav w_lu] in E2. rewrite X1 in E2. apply WR in E2.
    eapply (sim_bind (fun x => x)).
    { apply sim_lift. cbn [ns_nadir ms w_front w_nav w_lu]. rewrite distance_moved; [destruct (nv_distance _ _ _); reflexivity|exact En|exact E2|rewrite X4; exact WN]. }
    intros d s2 E3. apply lift_ok in E3. destruct E3 as [-> _].
    eapply (sim_bind (fun u => u)); [apply sim_mod; reflexivity|]. intros u4 s2 E3. unfold smod in E3. injection E3 as <- _.
    eapply (sim_bind (fun x => x)).
    { apply sim_lift. cbn [ns_front ns_lb ns_ub ms w_front w_nav w_lu w_dist fst snd mb]. unfold mb. cbn [fst snd].
      rewrite reachable_moved; [destruct (nv_reachable _ _ _); reflexivity|rewrite X1; exact WF|apply Eb|apply Eb]. }
    intros idx s2 E3. apply lift_ok in E3. destruct E3 as [-> _].
    eapply (sim_bind (fun u => u)); [apply sim_mod; reflexivity|]. intros u5 s2 E3. unfold smod in E3. injection E3 as <- _.
    eapply sim_bind; [apply sim_get|]. intros s3 s3' E3. unfold sget in E3. injection E3 as <- <-.
    eapply (sim_bind (fun u => u)).
    { cbn [ns_left ms w_front w_nav w_lu w_dist w_idx]. destruct (ns_left s1 =? 1)%Z; [apply sim_ret; reflexivity|apply sim_mod; reflexivity]. }
    intros u6 s4 _. eapply sim_bind; [apply sim_get|]. intros s5 s5' E3. unfold sget in E3. injection E3 as <- <-. apply sim_ret. reflexivity.
  Qed.

  Lemma stop_moved F vars idx : nv_stop (mm F) vars idx = rmap (moved_request t) (nv_stop F vars idx).
  Proof.
    unfold nv_stop. destruct (match vars with None => _ | Some v => _ end) as [decs|e]; [|reflexivity]. cbn [rbind]. rewrite take_mm.
    destruct (take F (idx_list idx)); reflexivity.
  Qed.
  Lemma iterate_moved c d s : wf k s -> length (ns_ideal s) = k -> length (nc_ideal c) = k -> nv_validate c d = Ok tt ->
    (forall ref, nd_ref d = Some ref -> length ref = k /\ forall r0, ns_ref s = Some r0 -> allclose (moved t ref) (moved t r0) = allclose ref r0) ->
    sim (moved_request t) (nv_iterate asf (NReq c) (Some d)) (nv_iterate asf (moved_request t (NReq c)) (Some (moved_answer t d))) s.
  Proof.
    intros W Hi Hci Hv Hu. apply nv_validate_len in Hv. destruct Hv as (ref & speed & prev & ub & stop & -> & Hl & [b ->] & [b' ->]).
    destruct (Hu ref eq_refl) as [Hr Hc]. unfold nv_iterate, moved_answer, moved_request, key. cbn [nd_ref nd_speed nd_prev nd_bounds nd_stop option_map].
    eapply (sim_bind (moved t)); [apply sim_lift; reflexivity|]. intros ref' s' E. injection E as <- <-.
    eapply (sim_bind (fun x => x)); [apply sim_lift; reflexivity|]. intros sp s' E. injection E as <- <-.
    eapply (sim_bind (fun x => x)); [apply sim_lift; reflexivity|]. intros pv s' E. injection E as <- <-.
    eapply (sim_bind (moved_opts t)); [apply sim_lift; reflexivity|]. intros ub' s' E. injection E as <- <-.
    eapply (sim_bind (fun x => x)); [apply sim_lift; reflexivity|]. intros st s' E. injection E as <- <-.
    eapply sim_bind; [apply sim_get|]. intros s0 s' E. injection E as <- <-. cbn [truthy].
    destruct b'; [apply sim_lift; apply stop_moved|]. rewrite to_floats_moved. destruct b.
    - unfold nv_back. eapply (sim_bind (fun u => u)); [apply sim_mod; reflexivity|]. intros u s' _. eapply sim_bind; [apply sim_get|]. intros s1 s1' E. unfold sget in E. injection E as <- <-. apply sim_ret. reflexivity.
    - apply forward_moved; auto. congruence.
  Qed.
  Lemma validate_moved c c' d : moved_request t (NReq c) = NReq c' -> length (nc_ideal c) = k -> length (nc_nadir c) = k -> (forall ref, nd_ref d = Some ref -> length ref = k) ->
    nv_validate c' (moved_answer t d) = nv_validate c d.
  Proof.
    intros E Hi Hn Hr. injection E as <-. unfold nv_validate, moved_answer. cbn [nd_ref nd_speed nd_prev nd_bounds nd_stop nc_ideal nc_nadir].
    destruct (nd_ref d) as [ref|] eqn:Er; [|reflexivity]. cbn [option_map]. destruct (nd_speed d) as [sp|]; [|reflexivity]. destruct (nd_prev d) as [pv|]; [|reflexivity].
    destruct (nd_bounds d) as [ub|]; [|reflexivity]. cbn [option_map]. destruct (nd_stop d) as [st|]; [|reflexivity].
    assert (E : bany nltb (moved t ref) (moved t (nc_ideal c)) = bany nltb ref (nc_ideal c)).
    { unfold bany. rewrite moved_bcast; auto. intros. apply up_ltb. }
    rewrite E, bany_moved by auto. rewrite moved_opts_length, moved_length. reflexivity.
  Qed.

  (** ** Histories *)
  Context (F : list (list XR)) (ideal nadir : list XR) (vars : option (list (list XR))) (used : list XR -> Prop).
  Hypothesis HS : setup k F ideal nadir vars.
  Hypothesis HL : forall ref, used ref -> length ref = k.
  Hypothesis HC : same_changes t used.

  Record shi (s1 s2 : nv_state XR) (qs : list (nv_request XR * nv_request XR)) : Prop := {
    sh_g : ginv k F ideal nadir vars s1 (map fst qs);
    sh_s : s2 = ms s1;
    sh_q : Forall (fun p => snd p = moved_request t (fst p)) qs;
    sh_r : forall r, ns_ref s1 = Some r -> used r }.

  Lemma shi_step s1 s2 qs c1 c2 d s1' out1 s2' out2 : shi s1 s2 qs -> In (NReq c1, NReq c2) qs -> nv_validate c1 d = Ok tt ->
    (forall ref, nd_ref d = Some ref -> used ref) ->
    nv_iterate asf (NReq c1) (Some d) s1 = (s1', out1) -> nv_iterate asf (NReq c2) (Some (moved_answer t d)) s2 = (s2', out2) ->
    out2 = rmap (moved_request t) out1 /\ shi s1' s2' (match out1, out2 with Ok q1, Ok q2 => (q1, q2) :: qs | _, _ => qs end).
  Proof.
    intros [G -> Q U] Hin Hv Hu I1 I2. assert (Hin1 : In (NReq c1) (map fst qs)) by (apply (in_map fst) in Hin; exact Hin).
    assert (E : NReq c2 = moved_request t (NReq c1)) by (rewrite Forall_forall in Q; exact (Q _ Hin)). rewrite E in I2.
    pose proof (g_reqs _ _ _ _ _ _ _ G c1 Hin1) as C.
    assert (LI : length (ns_ideal s1) = k) by (rewrite (g_ideal _ _ _ _ _ _ _ G); apply HS).
    assert (O : outcome k asf s1 c1 d s1' out1).
    { refine (nv_outcome XR_ord k asf s1 c1 d s1' out1 (g_wf _ _ _ _ _ _ _ G) LI C _ Hv I1). rewrite (g_vars _ _ _ _ _ _ _ G), (g_front _ _ _ _ _ _ _ G). apply HS. }
    assert (S : sim (moved_request t) (nv_iterate asf (NReq c1) (Some d)) (nv_iterate asf (moved_request t (NReq c1)) (Some (moved_answer t d))) s1).
    { apply iterate_moved; [apply G|exact LI|rewrite (cw_ideal _ _ _ C); exact LI|exact Hv|]. intros ref Er. split; [apply HL, Hu, Er|]. intros r0 E0. apply HC; auto. }
    unfold sim in S. rewrite I1, I2 in S. cbn [fst snd] in S. injection S as -> ->. split; [reflexivity|].
    pose proof (ginv_step XR_ord _ _ _ _ _ _ _ _ _ _ _ _ HS G Hin1 O) as G'.
    assert (U' : forall r, ns_ref s1' = Some r -> used r).
    { destruct O as [rows decs D1 -> T1 T1' ->|ub D1 D1' D1b L1 -> ->|ref sp ub D1 D1' Dr Ds Db L1 Fw ->|ref sp ub D1 D1' Dr Ds Db L1 Ff -> ->]; auto.
      - destruct Fw as (again & pi & proj & nav & rows & lb & ub' & dist & idx & _ & _ & _ & _ & _ & _ & _ & _ & -> & _). cbn [ns_ref]. destruct again; [|exact U]. intros r Er. assert (r = ref) as -> by congruence. auto.
      - destruct (ns_step s1 =? 1)%Z; auto. }
    destruct out1 as [q1|e]; cbn [rmap].
    - constructor; auto.
    - constructor; auto.
  Qed.
  Lemma shi_all s1 s2 qs : nv_shifted asf t F ideal nadir vars used s1 s2 qs -> shi s1 s2 qs.
  Proof.
    intros H. induction H as [|s1 s2 qs c1 c2 d s1' out1 s2' out2 H IH Hin Hv Hu H1 H2]; [|eapply shi_step; eauto].
    assert (E : nv_init (mm F) (moved t ideal) (moved t nadir) vars = ms (nv_init F ideal nadir vars)).
    { unfold nv_init, ms. cbn [ns_front ns_ideal ns_nadir ns_vars ns_lb ns_ub ns_bounds ns_idx ns_step ns_left ns_dist ns_speed ns_ref ns_nav ns_proj option_map].
      f_equal.
      - change (@nnan XR) with XNan. rewrite moved_nan. generalize (moved_length t ideal). generalize (moved t ideal). clear. induction ideal as [|x l IH]; intros [|y m] H; cbn in *; auto; try discriminate. rewrite IH; auto.
      - unfold moved_rows. rewrite map_length. reflexivity. }
    constructor; auto.
    - apply (ginv_reach XR_ord k asf); [exact HS|constructor].
    - constructor; [|constructor]. cbn [fst snd]. rewrite E. reflexivity.
    - cbn. discriminate.
  Qed.
End Moves.

Lemma pm_ignores : ignores_constants pm_asf.
Proof.
  intros t nadir ideal row ref Hn Hi Hr Hq. unfold pm_asf. replace (pm_terms (moved t nadir) (moved t ideal) (moved t row) (moved t ref)) with (pm_terms nadir ideal row ref); [reflexivity|].
  unfold pm_terms, vdiv, vsub. rewrite (moved_zipw nsub t) by (auto; intros; apply up_sub). f_equal.
  assert (E : map (fun x : XR => nsub x eps6) (moved t ideal) = moved t (map (fun x : XR => nsub x eps6) ideal)).
  { rewrite eps6_xr. clear. revert ideal. induction t as [|c t IH]; intros [|x l]; cbn [moved map]; auto. rewrite IH, up_sub_r. reflexivity. }
  rewrite E. symmetry. apply moved_zipw; auto; [intros; apply up_sub|rewrite map_length; exact Hi].
Qed.
