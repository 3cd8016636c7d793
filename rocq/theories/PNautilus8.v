(** * NAUTILUS: reported bounds, accepted preferences and their weights, the
    bound on impairment. *)
From Coq Require Import ZArith List Bool Lia Reals Lra.
From Verif Require Import Num NumXR Py Np Spec NpFacts XRFacts Hoare PRpm MAsf PAsf MNautilus SNautilus PNautilus PNautilus2 PNautilus3 PNautilus4 PNautilus5 PNautilus6.
Import ListNotations.

Section Reported.
  Context {N : NumOps} (p : nt_problem N) (v : nt_variant N) (eps : N) (k : nat) (ideal nadir : list N).
  Context (WF : nt_wf k p v ideal nadir).
  Definition reported (q : nt_request N) : Prop := forall z lo up e, q = NReq z lo up e -> up = z /\ bounded_by p k z lo.
  Notation any := (fun _ : nt_state N => True).
  Lemma put_any {A} get put i (x : A) : hs any (nput get put i x) (fun _ => any) (fun _ => any).
  Proof. unfold nput. apply hs_get_bind. intros s _. apply hs_lift_bind; [auto|]. intros l _. apply hs_mod. auto. Qed.
  Lemma weaken {A} (m : SE (nt_state N) A) P Q E : hs any m Q E -> hs P m Q E.
  Proof. apply hs_pre. auto. Qed.
  Lemma any_bind {A B} (m : SE (nt_state N) A) (f : A -> SE (nt_state N) B) Q : (forall a, hs any (f a) Q (fun _ => any)) -> hs any (sbind m f) Q (fun _ => any).
  Proof. intros H. eapply hs_bind; [|exact H]. intros s _. destruct (m s) as [s' [a|e]]; auto. Qed.
  Lemma bounds_spec z lo : nt_bounds p (length ideal) z = Ok lo -> bounded_by p k z lo.
  Proof.
    destruct WF as (W0 & W1 & W2 & W3 & W4). unfold nt_bounds. rewrite W1. intros H. apply rseq_map_ok in H. split; [apply Forall2_len in H; rewrite seq_length in H; auto|].
    intros i Hi. destruct (Forall2_nth_l _ _ _ i i H) as (a & Ha & G).
    { rewrite nth_error_nth' with (d := 0) by (rewrite seq_length; exact Hi). rewrite seq_nth by exact Hi. reflexivity. }
    apply rbind_ok in G as (x & Ex & Ea). exists x. split; [exact Ex|]. unfold at_ in Ea. destruct (nth_error (np_eval p x) i); congruence.
  Qed.
  Lemma report_any : hs any (nt_report p v ideal nadir) (fun q _ => reported q) (fun _ => any).
  Proof.
    unfold nt_report. apply any_bind. intros s. apply any_bind. intros z. apply hs_lift_bind; [auto|]. intros b Eb.
    apply any_bind. intros []. apply any_bind. intros []. apply any_bind. intros f. apply any_bind. intros e. apply any_bind. intros [].
    apply hs_ret. intros _ _ z' lo up e' E. injection E as <- <- <- <-. split; [reflexivity|]. apply bounds_spec, Eb.
  Qed.
  Lemma initial_any d : hs any (nt_handle_initial p v eps ideal nadir d) (fun q _ => reported q) (fun _ => any).
  Proof. unfold nt_handle_initial. repeat (first [apply report_any | apply any_bind; intros]). Qed.
  Definition oreported (r : option (nt_request N)) : Prop := match r with Some q => reported q | None => True end.
  Lemma ret_any (m : SE (nt_state N) (nt_request N)) : hs any m (fun q _ => reported q) (fun _ => any) -> hs any (q <-- m ;; sret (Some q)) (fun r _ => oreported r) (fun _ => any).
  Proof. intros H. eapply hs_bind; [exact H|]. intros q. apply hs_ret. auto. Qed.
  Lemma handle_any d : hs any (nt_handle p v eps ideal nadir d) (fun r _ => oreported r) (fun _ => any).
  Proof.
    unfold nt_handle. apply any_bind. intros []. apply any_bind. intros s. apply hs_if; intros _.
    { apply any_bind. intros []. apply any_bind. intros x. apply any_bind. intros f. apply hs_ret. intros _ _ z lo up e E. discriminate. }
    apply any_bind. intros b. apply hs_if; intros _.
    { apply ret_any. unfold nt_forward. apply any_bind. intros []. apply any_bind. intros u. apply any_bind. intros []. apply any_bind. intros []. apply report_any. }
    apply any_bind. intros h. apply hs_if; intros _.
    { apply ret_any. unfold nt_half. repeat (first [apply report_any | apply any_bind; intros]). }
    apply any_bind. intros u. apply hs_if; intros _; [apply hs_ret; exact (fun _ _ => Logic.I)|].
    apply any_bind. intros []. apply any_bind. intros []. apply ret_any, report_any.
  Qed.
  Lemma reach_reported ok s qs : nt_reach p v eps ideal nadir ok s qs -> Forall reported qs.
  Proof.
    intros H. induction H as [|s qs q resp s' out HR IH Hq HV HA HI]; [constructor; [discriminate|constructor]|].
    assert (G : forall q', out = Ok (Some q') -> reported q').
    { intros q' ->. destruct q as [|z lo up e|x f]; cbn [nt_iterate] in HI.
      - apply sbind_ok in HI as (d & s1 & _ & HI). apply sbind_ok in HI as (q1 & s2 & HI & E). injection E as _ <-. exact (hs_run _ _ _ _ _ _ _ (initial_any d) Logic.I HI).
      - apply sbind_ok in HI as (d & s1 & _ & HI). exact (hs_run _ _ _ _ _ _ _ (handle_any d) Logic.I HI).
      - injection HI as _ <-. discriminate. }
    destruct out as [[q'|]|]; auto.
  Qed.
End Reported.

(** The initial request is never issued again. *)
Section NotInit.
  Context {N : NumOps} (p : nt_problem N) (v : nt_variant N) (eps : N) (ideal nadir : list N).
  Notation any := (fun _ : nt_state N => True).
  Lemma report_notinit : hs any (nt_report p v ideal nadir) (fun q _ => q <> NInit) (fun _ => any).
  Proof. unfold nt_report. repeat (apply any_bind; intros). apply hs_ret. discriminate. Qed.
  Lemma initial_notinit d : hs any (nt_handle_initial p v eps ideal nadir d) (fun q _ => q <> NInit) (fun _ => any).
  Proof. unfold nt_handle_initial. repeat (first [apply report_notinit | apply any_bind; intros]). Qed.
  Lemma ret_notinit (m : SE (nt_state N) (nt_request N)) : hs any m (fun q _ => q <> NInit) (fun _ => any) -> hs any (q <-- m ;; sret (Some q)) (fun r _ => r <> Some NInit) (fun _ => any).
  Proof. intros H. eapply hs_bind; [exact H|]. intros q. apply hs_ret. congruence. Qed.
  Lemma handle_notinit d : hs any (nt_handle p v eps ideal nadir d) (fun r _ => r <> Some NInit) (fun _ => any).
  Proof.
    unfold nt_handle. apply any_bind. intros []. apply any_bind. intros s. apply hs_if; intros _.
    { apply any_bind. intros []. apply any_bind. intros x. apply any_bind. intros f. apply hs_ret. discriminate. }
    apply any_bind. intros b. apply hs_if; intros _.
    { apply ret_notinit. unfold nt_forward. apply any_bind. intros []. apply any_bind. intros u. apply any_bind. intros []. apply any_bind. intros []. apply report_notinit. }
    apply any_bind. intros h. apply hs_if; intros _.
    { apply ret_notinit. unfold nt_half. repeat (first [apply report_notinit | apply any_bind; intros]). }
    apply any_bind. intros u. apply hs_if; intros _; [apply hs_ret; discriminate|].
    apply any_bind. intros []. apply any_bind. intros []. apply ret_notinit, report_notinit.
  Qed.
End NotInit.

Lemma run_weaken {N : NumOps} (p : nt_problem N) v eps ideal nadir {G} g (g0 : G) (A B : nt_request N -> nt_dict N -> Prop) s qs h :
  (forall q d, A q d -> B q d) -> nt_run p v eps ideal nadir g g0 A s qs h -> nt_run p v eps ideal nadir g g0 B s qs h.
Proof. intros HAB H. induction H; [apply nt_run_start|]. eapply nt_run_step; eauto. Qed.
Lemma run_not_init {N : NumOps} (p : nt_problem N) v eps ideal nadir {G} g (g0 : G) A s q qs h :
  nt_run p v eps ideal nadir g g0 A s (q :: qs) h -> qs <> [] -> q <> NInit.
Proof.
  intros HP Hq. remember (q :: qs) as l eqn:El. destruct HP as [|s q0 qs0 h d s' q' HP HV HA HI]; [injection El as E1 E2; congruence|]. injection El as E1 E2. subst q qs. intros ->.
  destruct q0 as [|z lo up e|x f]; cbn [nt_iterate] in HI.
  - apply sbind_ok in HI as (d0 & s1 & _ & HI). apply sbind_ok in HI as (q1 & s2 & HI & E). injection E as _ ->.
    exact (hs_run _ _ _ _ _ _ _ (initial_notinit p v eps ideal nadir d0) Logic.I HI eq_refl).
  - apply sbind_ok in HI as (d0 & s1 & _ & HI). exact (hs_run _ _ _ _ _ _ _ (handle_notinit p v eps ideal nadir d0) Logic.I HI eq_refl).
  - discriminate.
Qed.
Section Bounds.
  (** Exact solvers of the epsilon-constraint problems. *)
  Context {N : NumOps} (L : OrdLaws N) (p : nt_problem N) (k : nat) (HL : forall x, length (np_eval p x) = k).
  Context (HE : forall i e x, i < k -> np_ecm p i e (np_x0 p) = Ok x -> forall y a b, vle (drop_at i (np_eval p y)) e ->
     nth_error (np_eval p x) i = Some a -> nth_error (np_eval p y) i = Some b -> nleb a b = true).
  Lemma drop_vle i (a b : list N) : vle a b -> vle (drop_at i a) (drop_at i b).
  Proof.
    intros H. revert i. induction H as [|x y a b Hxy H IH]; intros i; [destruct i; constructor|].
    destruct i as [|i]; [exact H|]. constructor; [exact Hxy|]. apply IH.
  Qed.
  Lemma bounds_enclose z lo y : bounded_by p k z lo -> vle (np_eval p y) z -> vle lo (np_eval p y).
  Proof.
    intros (L1 & HB) HY. apply Forall2_from_nth; [rewrite HL; exact L1|]. intros i a b Ha Hb.
    assert (Hi : i < k) by (rewrite <- L1; apply nth_error_Some; congruence). destruct (HB i Hi) as (x & Ex & E). rewrite E in Ha.
    eapply (HE i _ x Hi Ex y); eauto. apply drop_vle, HY.
  Qed.
  (** They are solvers: what they return satisfies the bounds they were given. *)
  Context (HFe : forall i e x, i < k -> (exists y, vle (drop_at i (np_eval p y)) e) -> np_ecm p i e (np_x0 p) = Ok x -> vle (drop_at i (np_eval p x)) e).
  Lemma bounds_tighten z lo z' lo' : bounded_by p k z lo -> bounded_by p k z' lo' -> vle z' z -> (exists y, vle (np_eval p y) z') -> vle lo lo'.
  Proof.
    intros (L1 & HB) (L2 & HB') HZ (y0 & Hy0). apply Forall2_from_nth; [congruence|]. intros i a b Ha Hb.
    assert (Hi : i < k) by (rewrite <- L1; apply nth_error_Some; congruence). destruct (HB i Hi) as (x & Ex & E). destruct (HB' i Hi) as (x' & Ex' & E').
    rewrite E in Ha. rewrite E' in Hb.
    eapply (HE i _ x Hi Ex x'); eauto. apply (vle_trans L _ (drop_at i z')).
    - apply (HFe i _ x' Hi); [exists y0; apply drop_vle, Hy0|exact Ex'].
    - apply drop_vle, HZ.
  Qed.
End Bounds.

(** ** Accepted preferences of NAUTILUS *)
Lemma pymax_spec (v : list R) x : pymax (xv v : list XR) = Ok x -> exists r, x = Fin r /\ In r v /\ Forall (fun y => (y <= r)%R) v.
Proof.
  destruct v as [|a v]; [discriminate|]. cbn [xv map pymax]. intros E. injection E as <-. revert a. induction v as [|b v IH]; intros a; cbn [map fold_left].
  - exists a. repeat split; [left; reflexivity|]. constructor; [lra|constructor].
  - change (xltb (Fin a) (Fin b)) with (@nltb XR (Fin a) (Fin b)). destruct (@nltb XR (Fin a) (Fin b)) eqn:E.
    + apply xltb_fin in E. destruct (IH b) as (r & E1 & I1 & F1). exists r. split; [exact E1|]. split; [right; exact I1|]. constructor; [|exact F1]. inversion F1; subst. lra.
    + apply xltb_fin_false in E. destruct (IH a) as (r & E1 & I1 & F1). exists r. split; [exact E1|]. inversion F1 as [|? ? A1 A2]; subst. split; [destruct I1 as [<-|I1]; [left; reflexivity|right; right; exact I1]|]. constructor; [exact A1|]. constructor; [lra|exact A2].
Qed.
(** The same for any ordered arithmetic. *)
Lemma pymax_any {N : NumOps} (L : OrdLaws N) (v : list N) x : nan_free v -> pymax v = Ok x -> In x v /\ Forall (fun y => nleb y x = true) v.
Proof.
  destruct v as [|a v]; [discriminate|]. cbn [pymax]. intros HN E. injection E as <-. revert a HN. induction v as [|b v IH]; intros a HN; cbn [fold_left].
  - split; [left; reflexivity|]. constructor; [|constructor]. apply (ol_refl N L). inversion HN; assumption.
  - inversion HN as [|? ? Ha HN']; subst. inversion HN' as [|? ? Hb HN'']; subst. destruct (nltb a b) eqn:E.
    + destruct (IH b HN') as [I1 F1]. split; [right; exact I1|]. constructor; [|exact F1]. inversion F1; subst.
      apply (ltb_true L) in E as [E _]. eapply (ol_trans N L); eassumption.
    + destruct (IH a) as [I1 F1]; [constructor; assumption|]. inversion F1 as [|? ? A1 A2]; subst.
      split; [destruct I1 as [I1|I1]; [left; exact I1|right; right; exact I1]|]. constructor; [exact A1|]. constructor; [|exact A2].
      eapply (ol_trans N L); [|exact A1]. apply (ltb_false_notnan L); assumption.
Qed.
Lemma ranks_check_any {N : NumOps} (L : OrdLaws N) k (r : list N) m : nan_free r -> py_eq m 1 = true -> 0 < k ->
  (nt1_check k m (PArr r) = Ok tt <-> k <= length r /\ Forall (fun x => nleb x (nofZ (Z.of_nat k)) = true) r /\ Exists (fun x => nleb (nofZ 1) x = true) r) /\
  nt1_check k m (PArr r) = nt1_check k m (PList r).
Proof.
  intros HN Hm Hk. split; [|reflexivity]. unfold nt1_check. rewrite Hm. cbn [orb negb info_len rbind].
  destruct (Nat.ltb_spec (length r) k) as [G|G]; [split; [discriminate|lia]|].
  destruct (pymax r) as [x|] eqn:E.
  - destruct (pymax_any L _ _ HN E) as (I1 & F1). cbn [rbind]. rewrite Forall_forall in F1.
    destruct (nleb (nofZ 1) x) eqn:E1; cbn [andb].
    + destruct (nleb x (nofZ (Z.of_nat k))) eqn:E2.
      * split; [intros _|reflexivity]. split; [exact G|]. split; [apply Forall_forall; intros z Hz; eapply (ol_trans N L); [apply F1, Hz|exact E2]|]. apply Exists_exists. eauto.
      * split; [discriminate|]. intros (_ & H & _). rewrite Forall_forall in H. specialize (H x I1). congruence.
    + split; [discriminate|]. intros (_ & _ & H). apply Exists_exists in H as (z & Hz & Hz1).
      rewrite (ol_trans N L _ _ _ Hz1 (F1 z Hz)) in E1. discriminate.
  - exfalso. destruct r; [cbn in G; lia|discriminate].
Qed.
Lemma ranks_check k (r : list R) m : py_eq m 1 = true -> 0 < k ->
  (nt1_check k m (PArr (xv r) : nt_info XR) = Ok tt <-> k <= length r /\ Forall (fun x => (x <= IZR (Z.of_nat k))%R) r /\ Exists (fun x => (1 <= x)%R) r) /\
  nt1_check k m (PArr (xv r) : nt_info XR) = nt1_check k m (PList (xv r)).
Proof.
  intros Hm Hk. split; [|reflexivity]. unfold nt1_check. rewrite Hm. cbn [orb negb info_len rbind]. rewrite xv_length.
  destruct (Nat.ltb_spec (length r) k) as [G|G]; [split; [discriminate|lia]|].
  destruct (pymax (xv r : list XR)) as [x|] eqn:E.
  - destruct (pymax_spec _ _ E) as (y & -> & I1 & F1). cbn [rbind]. rewrite Forall_forall in F1.
    destruct (@nleb XR (nofZ 1) (Fin y)) eqn:E1; [apply xleb_fin in E1|apply xleb_fin_false in E1]; cbn [andb].
    + destruct (@nleb XR (Fin y) (nofZ (Z.of_nat k))) eqn:E2; [apply xleb_fin in E2|apply xleb_fin_false in E2].
      * split; [intros _|reflexivity]. split; [exact G|]. split; [apply Forall_forall; intros z Hz; specialize (F1 z Hz); lra|]. apply Exists_exists. eauto.
      * split; [discriminate|]. intros (_ & H & _). rewrite Forall_forall in H. specialize (H y I1). lra.
    + split; [discriminate|]. intros (_ & _ & H). apply Exists_exists in H as (z & Hz & Hz1). specialize (F1 z Hz). lra.
  - exfalso. destruct r; [cbn in G; lia|discriminate].
Qed.
Lemma rsum_fold (l : list R) : fold_left Rplus l 0%R = rsum l.
Proof. rewrite fold_plus, Rplus_0_l. induction l as [|a l IH]; [reflexivity|]. cbn [rlsum]. rewrite IH. reflexivity. Qed.
Lemma xeqb_fin a b : @neqb XR (Fin a) (Fin b) = true <-> a = b.
Proof. change (@neqb XR) with xeqb. unfold xeqb. rewrite andb_true_iff. change xleb with (@nleb XR). rewrite !xleb_fin. lra. Qed.
Lemma percent_check k (r : list R) m : py_eq m 1 = false -> py_eq m 2 = true ->
  (nt1_check k m (PArr (xv r) : nt_info XR) = Ok tt <-> k <= length r /\ rsum r = 100%R) /\
  nt1_check k m (PArr (xv r) : nt_info XR) = nt1_check k m (PList (xv r)).
Proof.
  intros Hm1 Hm. split; [|reflexivity]. unfold nt1_check. rewrite Hm1, Hm. cbn [orb negb info_len rbind]. rewrite xv_length.
  destruct (Nat.ltb_spec (length r) k) as [G|G]; [split; [discriminate|lia]|].
  unfold vsum. change (@nofZ XR 0) with (Fin 0 : XR). rewrite vsum_xr, rsum_fold. change (@nofZ XR 100) with (Fin 100 : XR).
  destruct (@neqb XR (Fin (rsum r)) (Fin 100)) eqn:E.
  - apply xeqb_fin in E. tauto.
  - split; [discriminate|]. intros [_ H]. apply xeqb_fin in H. congruence.
Qed.
Lemma weights_xr (r nd ut : list R) : Forall (fun x => x <> 0%R) r -> Forall (fun x => x <> 0%R) (rsub nd ut) ->
  nt1_weights (xv r) (xv nd) (xv ut : list XR) = xv (zipw (fun ri d => 1 / (ri * d))%R r (rsub nd ut)).
Proof.
  intros H. revert nd ut. induction H as [|ri r Hri Hr IH]; intros nd ut G; [reflexivity|].
  destruct nd as [|n nd]; [reflexivity|]. destruct ut as [|u ut]; [reflexivity|]. inversion G; subst.
  change (xv (ri :: r)) with (Fin ri :: xv r). change (xv (n :: nd)) with (Fin n :: xv nd). change (xv (u :: ut)) with (Fin u :: xv ut). cbn [nt1_weights].
  rewrite IH by assumption. unfold rsub. cbn [zipw xv map]. f_equal. change (@ndiv XR) with xdiv. change (@nmul XR) with xmul. change (@nsub XR) with xsub. cbn [xsub xmul nofZ XR].
  apply xdiv_fin. apply Rmult_integral_contrapositive_currified; assumption.
Qed.
Lemma utopian_xr (ideal : list R) eps : nt_utopian (xv ideal) (Fin eps : XR) = xv (map (fun x => x - eps)%R ideal).
Proof. unfold nt_utopian, xv. rewrite !map_map. reflexivity. Qed.
Lemma gap_pos (ideal nadir : list R) eps : Forall2 (fun m n => m - eps < n)%R ideal nadir -> Forall (fun x => (0 < x)%R) (rsub nadir (map (fun x => x - eps)%R ideal)).
Proof. intros H. induction H; cbn; constructor; auto. lra. Qed.
Lemma factor_ok (r nadir ideal : list R) eps : length r >= length nadir -> length ideal = length nadir ->
  factor_weights r nadir ideal eps (zipw (fun ri d => 1 / (ri * d))%R r (rsub nadir (map (fun x => x - eps)%R ideal))).
Proof.
  unfold factor_weights, rsub. revert r ideal. induction nadir as [|n nadir IH]; intros r [|m ideal] H1 H2; try discriminate.
  - split; [rewrite !zipw_length; cbn; lia|]. intros [|i]; discriminate.
  - destruct r as [|x r]; cbn in H1; [lia|]. cbn [map zipw length]. destruct (IH r ideal) as [I1 I2]; [cbn in *; lia|injection H2; auto|]. split; [rewrite I1; reflexivity|].
    intros [|i] ri ni mi Hr Hn Hi; cbn in *; [injection Hr as <-; injection Hn as <-; injection Hi as <-; reflexivity|]. apply I2; assumption.
Qed.

(** ** The achievement function bounds the impairment *)
Local Open Scope R_scope.
Lemma fold_rmax_ge l : forall a, a <= fold_left Rmax l a /\ forall x, In x l -> x <= fold_left Rmax l a.
Proof.
  induction l as [|b l IH]; intros a; cbn [fold_left]; [split; [lra|intros x []]|]. destruct (IH (Rmax a b)) as [I1 I2]. pose proof (Rmax_l a b). pose proof (Rmax_r a b).
  split; [lra|]. intros x [->|Hx]; [lra|auto].
Qed.
Lemma rlmax_ge l x : In x l -> x <= rlmax l.
Proof. destruct l as [|a l]; [intros []|]. cbn [rlmax]. destruct (fold_rmax_ge l a) as [H1 H2]. intros [->|Hx]; [exact H1|auto]. Qed.
Lemma fold_rmax_le l b : forall a, a <= b -> Forall (fun x => x <= b) l -> fold_left Rmax l a <= b.
Proof. induction l as [|c l IH]; intros a Ha H; [exact Ha|]. inversion H; subst. cbn. apply IH; [apply Rmax_lub; assumption|assumption]. Qed.
Lemma rlmax_le l b : 0 <= b -> Forall (fun x => x <= b) l -> rlmax l <= b.
Proof. intros Hb H. destruct H as [|x l H1 H2]; [exact Hb|]. apply fold_rmax_le; assumption. Qed.
Lemma rasf_nonpos rho w nd ut f q : 0 <= rho -> Forall (fun x => 0 <= x) w -> Forall (fun x => 0 < x) (rsub nd ut) -> length nd = length q -> length ut = length q -> rvle f q ->
  rasf rho w nd ut f q <= 0.
Proof.
  intros Hr Hw Hd Ln Lu H. unfold rasf.
  assert (A : rlmax (zipw Rmult w (rsub f q)) <= 0).
  { apply rlmax_le; [lra|]. clear -H Hw. unfold rsub. revert w Hw. induction H as [|x y f q Hxy H IH]; intros [|u w] Hw; cbn; try constructor; inversion Hw; subst; [|auto].
    rewrite <- (Rmult_0_r u). apply Rmult_le_compat_l; lra. }
  assert (B : rlsum (zipw Rdiv (rsub f q) (rsub nd ut)) <= 0).
  { assert (Ld : length (rsub nd ut) = length q) by (rewrite rsub_len; congruence). clear -H Hd Ld. revert Ld Hd. generalize (rsub nd ut). unfold rsub. induction H as [|x y f q Hxy H IH]; intros [|u d] Ld Hd; cbn in *; try lra; try discriminate.
    inversion Hd; subst. specialize (IH d ltac:(lia) H3). assert ((x - y) / u <= 0); [|lra]. unfold Rdiv. rewrite <- (Rmult_0_l (/ u)). apply Rmult_le_compat_r; [left; apply Rinv_0_lt_compat; assumption|lra]. }
  assert (rho * rlsum (zipw Rdiv (rsub f q) (rsub nd ut)) <= rho * 0) by (apply Rmult_le_compat_l; assumption). lra.
Qed.
Lemma impair rho w nd ut f q i wi fi qi : rasf rho w nd ut f q <= 0 -> nth_error w i = Some wi -> nth_error f i = Some fi -> nth_error q i = Some qi ->
  wi * (fi - qi) <= rho * - rlsum (zipw Rdiv (rsub f q) (rsub nd ut)).
Proof.
  unfold rasf. intros H Ew Ef Eq. assert (G : In (wi * (fi - qi)) (zipw Rmult w (rsub f q))).
  { clear H. unfold rsub. revert w f q Ew Ef Eq. induction i as [|i IH]; intros [|a w] [|b f] [|c q] Ew Ef Eq; cbn in *; try discriminate; [injection Ew as <-; injection Ef as <-; injection Eq as <-; left; reflexivity|right; auto]. }
  apply rlmax_ge in G. lra.
Qed.
Lemma gain_bound nd ut f q : Forall (fun x => 0 < x) (rsub nd ut) -> length f = length q -> length ut = length q -> rvle ut f -> rvle q nd ->
  - rlsum (zipw Rdiv (rsub f q) (rsub nd ut)) <= INR (length q).
Proof.
  intros Hd Lf Lu H1 H2. unfold rsub in *. revert f nd ut Hd Lf Lu H1 H2. induction q as [|y q IH]; intros [|x f] [|n nd] [|u ut] Hd Lf Lu H1 H2; try discriminate; try (inversion H2; fail); [cbn; lra|].
  inversion H1; inversion H2; subst. cbn [zipw rlsum length] in *. inversion Hd; subst.
  assert (G : - rlsum (zipw Rdiv (zipw Rminus f q) (zipw Rminus nd ut)) <= INR (length q)) by (apply IH; auto; lia).
  rewrite S_INR. assert (- ((x - y) / (n - u)) <= 1); [|lra].
  replace (- ((x - y) / (n - u))) with ((y - x) / (n - u)) by (field; lra). apply (Rmult_le_reg_r (n - u)); [lra|]. unfold Rdiv. rewrite Rmult_assoc, Rinv_l by lra. lra.
Qed.
