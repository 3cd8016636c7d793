(** * Reference Point Method on finite exact data, and demonstration sessions. *)
From Coq Require Import ZArith List Bool Lia Reals Lra Floats.
From Verif Require Import Num NumXR NumF64 Py Np Spec NpFacts XRFacts MAsf PAsf MRpm SRpm PRpm PRpm2.
Import ListNotations.

Lemma rbump_nth q d i j y : nth_error q j = Some y -> nth_error (rbump q d i) j = Some (if Nat.eqb j i then y + d else y)%R.
Proof.
  unfold rbump. intros H. rewrite nth_error_map.
  assert (G : forall a (l : list R) j y, nth_error l j = Some y -> nth_error (combine (seq a (length l)) l) j = Some (a + j, y)).
  { clear. intros a l. revert a. induction l as [|x l IH]; intros a j y; [destruct j; discriminate|]. destruct j; cbn.
    - intros E. injection E as <-. rewrite Nat.add_0_r. reflexivity.
    - intros E. rewrite (IH (S a) j y E). replace (a + S j) with (S a + j) by lia. reflexivity. }
  rewrite (G 0 q j y H). reflexivity.
Qed.
Lemma rbump_length q d i : length (rbump q d i) = length q.
Proof. unfold rbump. rewrite map_length, combine_length, seq_length. lia. Qed.
Lemma nth_ext_error {A} (a b : list A) : length a = length b -> (forall i x, nth_error b i = Some x -> nth_error a i = Some x) -> a = b.
Proof.
  revert b. induction a as [|x a IH]; intros [|y b] L H; try discriminate; auto. f_equal.
  - specialize (H 0 y eq_refl). cbn in H. congruence.
  - apply IH; [cbn in L; lia|]. intros i z E. exact (H (S i) z E).
Qed.
Lemma perturbed_xr q d pqs : rp_perturbed (xv q : list XR) (Fin d : XR) pqs -> pqs = xm (map (rbump q d) (seq 0 (length q))).
Proof.
  intros [L H]. rewrite xv_length in L. apply nth_ext_error; [rewrite xm_length, map_length, seq_length; auto|].
  intros i r Hr. rewrite xm_nth, nth_error_map in Hr.
  destruct (nth_error (seq 0 (length q)) i) as [i'|] eqn:Ei; [|discriminate]. cbn in Hr. injection Hr as <-.
  assert (Li : i < length q) by (rewrite <- (seq_length (length q) 0); apply nth_error_Some; congruence).
  rewrite (nth_error_nth' _ 0), seq_nth in Ei by (rewrite ?seq_length; lia). injection Ei as <-. cbn [plus].
  destruct (nth_error pqs i) as [pq|] eqn:Ep; [|apply nth_error_None in Ep; lia]. f_equal. destruct (H i pq Ep) as [Lp Hp].
  apply nth_ext_error; [rewrite Lp, !xv_length, rbump_length; auto|]. intros j y Hy. rewrite xv_nth in Hy.
  destruct (nth_error q j) as [z|] eqn:Ez. 2:{ apply nth_error_None in Ez. rewrite (proj2 (nth_error_None _ _)) in Hy by (rewrite rbump_length; auto). discriminate. }
  rewrite (rbump_nth q d i j z Ez) in Hy. cbn in Hy. injection Hy as <-.
  rewrite (Hp j (Fin z : XR)) by (rewrite xv_nth, Ez; reflexivity). f_equal.
  destruct (Nat.eqb j i); cbn [nmul nofZ XR nadd xmul xadd]; f_equal; ring.
Qed.
Lemma prp_xr q f : length q = length f -> rp_prp (xv q : list XR) (xv f) = Ok (xm (map (rbump q (rdist q f)) (seq 0 (length q)))).
Proof.
  intros H. destruct (prp_ok (N:=XR) (length q) (xv q) (xv f)) as (pq & E & P & _); rewrite ?xv_length; auto.
  rewrite E. f_equal. apply perturbed_xr. unfold vsub in P. rewrite vsub_xr, vnorm_sub in P. exact P.
Qed.

Section Disc.
  Variables (objs : list (list R)) (decs : list (list XR)) (rho eps : R) (ideal nadir : list R).
  Hypothesis (Hk : 0 < length nadir) (Li : length ideal = length nadir).
  Hypothesis HM : Forall (fun r => length r = length nadir) objs.
  Hypothesis (Ld : length decs = length objs) (Hne : objs <> []).
  (** The utopian point is below the nadir. *)
  Hypothesis Hlt : Forall2 (fun i n => i - eps < n)%R ideal nadir.
  Let ut := map (fun x => x - eps)%R ideal.
  Let P : rp_problem XR := RDisc (xm objs) decs.

  Lemma disc_wf : rp_wf (length nadir) P (xv ideal) (xv nadir).
  Proof.
    split; [auto|]. rewrite !xv_length. split; auto. split; auto. split; [apply xm_is_matrix; auto|]. rewrite xm_length.
    split; auto. destruct objs; [congruence|discriminate].
  Qed.
  Lemma ut_xr : rp_utopian (xv ideal : list XR) (Fin eps : XR) = xv ut.
  Proof. unfold rp_utopian, ut, xv. rewrite !map_map. reflexivity. Qed.
  Lemma lut : length ut = length nadir.
  Proof. unfold ut. rewrite map_length. auto. Qed.
  Lemma den_neg : Forall (fun x => x < 0)%R (rsub ut nadir).
  Proof. unfold ut, rsub. clear - Hlt. induction Hlt; cbn; constructor; auto. lra. Qed.
  Lemma den_pos : Forall (fun x => 0 < x)%R (rsub nadir ut).
  Proof. unfold ut, rsub. clear - Hlt. induction Hlt; cbn; constructor; auto. lra. Qed.
  Lemma w_xr q w : length q = length nadir -> bcast2 (@ndiv XR) (xv q) (zipw nsub (xv ut : list XR) (xv nadir)) = Ok w ->
    exists wr, w = xv wr /\ length wr = length nadir /\ (Forall (fun x => x <= 0)%R q -> Forall (fun x => 0 <= x)%R wr).
  Proof.
    intros Lq H. rewrite vsub_xr in H. rewrite bcast2_eq in H by (rewrite !xv_length, rsub_len; rewrite lut; auto).
    rewrite zipdiv_xr in H by (eapply Forall_impl; [|exact den_neg]; cbn; intros; lra). injection H as <-.
    exists (zipw Rdiv q (rsub ut nadir)). split; auto. split; [rewrite zipw_length, rsub_len; rewrite lut; lia|].
    intros Hq. pose proof den_neg as D. revert D. generalize (rsub ut nadir). clear - Hq. induction Hq as [|x q Hx Hq IH]; intros [|d l] D; cbn; constructor; inversion D; subst; auto.
    unfold Rdiv. replace (x * / d)%R with ((- x) * / - d)%R by (field; lra). apply Rmult_le_pos; [lra|]. left. apply Rinv_0_lt_compat. lra.
  Qed.
  Lemma disc_solve_total w q x0 : length w = length nadir -> length q = length nadir ->
    exists r, rp_solve P (Fin rho : XR) (xv w) (xv nadir) (xv ut) (xv q) x0 = Ok r.
  Proof.
    intros Lw Lq. cbn [P rp_solve]. unfold rp_disc.
    assert (E : rseq (map (fun f => rp_asf (N:=XR) (Fin rho) (xv w) (xv nadir) (xv ut) f (xv q)) (xm objs)) = Ok (xv (map (fun f => rasf rho w nadir ut f q) objs))).
    { unfold xm, xv at 6. rewrite !map_map. rewrite <- map_rseq_ok. f_equal. apply map_ext_in. intros f Hf. rewrite Forall_forall in HM. pose proof (HM _ Hf).
      pose proof lut. apply rp_asf_xr; try congruence. eapply Forall_impl; [|exact den_pos]. cbn. intros. lra. }
    rewrite E. cbn [rbind]. destruct (npnanargmin _) as [i|e] eqn:Ei.
    - pose proof (npnanargmin_ok XR_ord _ _ Ei) as (v & Hv & _). assert (Hi : i < length objs).
      { rewrite <- (map_length (fun f => rasf rho w nadir ut f q)), <- (xv_length (map _ objs)). apply nth_error_Some. congruence. }
      cbn [rbind]. unfold at_. destruct (nth_error decs i) eqn:E1; [|apply nth_error_None in E1; lia].
      destruct (nth_error (xm objs) i) eqn:E2; [|apply nth_error_None in E2; rewrite xm_length in E2; lia]. cbn. eauto.
    - exfalso. assert (G : Forall (fun y => nisnan y = true) (xv (map (fun f => rasf rho w nadir ut f q) objs) : list XR)) by (apply (npnanargmin_raise XR_ord); eauto).
      destruct objs; [congruence|]. cbn in G. inversion G as [|? ? G1]. rewrite xisnan_fin in G1. discriminate.
  Qed.
  Lemma disc_solve_real w ref q x0 r : rp_solve P (Fin rho : XR) w (xv nadir) ref q x0 = Ok r -> exists f, snd r = xv f /\ In f objs.
  Proof.
    cbn [P rp_solve]. intros H. apply rbind_ok in H as (i & _ & H). apply rbind_ok in H as (x & _ & H). apply rbind_ok in H as (f & Hf & H). injection H as <-.
    apply at_ok in Hf. rewrite xm_nth in Hf. destruct (nth_error objs i) as [f'|] eqn:E; [|discriminate]. injection Hf as <-. exists f'. split; auto. eapply nth_error_In; eauto.
  Qed.
  (** An iteration with a finite reference point never fails on finite data. *)
  Lemma disc_round_total q s s' out : length q = length nadir -> rp_inv P (length nadir) s ->
    rp_round P (Fin rho : XR) (Fin eps) (xv ideal) (xv nadir) (RArr (xv q)) s = (s', out) -> exists q', out = Ok q'.
  Proof.
    intros Lq I H. destruct (round_spec XR_ord P (Fin rho : XR) (Fin eps) (length nadir) (xv ideal) (xv nadir) disc_wf s (xv q) s' out I) as (_ & _ & w & Ew & G); auto; [rewrite xv_length; auto|].
    cbv zeta in G. rewrite ut_xr in Ew, G. destruct (w_xr q w Lq Ew) as (wr & -> & Lw & _).
    destruct G as [(e & x0 & -> & _ & (q' & Eq & [->|(x & f & pq & E1 & E2 & Hin)]) & _)|(? & ? & ? & ? & ? & _ & _ & _ & _ & -> & _)]; [| |eauto].
    - destruct (disc_solve_total wr q x0 Lw Lq) as (r & E). congruence.
    - destruct (disc_solve_real _ _ _ _ _ E1) as (fr & Ef & Hf). cbn in Ef. subst f.
      assert (Lf : length fr = length nadir) by (rewrite Forall_forall in HM; auto).
      rewrite prp_xr in E2 by congruence. injection E2 as <-. apply in_map_iff in Hin as (q'' & <- & Hin). apply in_map_iff in Hin as (i & <- & _).
      destruct (disc_solve_total wr (rbump q (rdist q fr) i) x0 Lw) as (r & E); [rewrite rbump_length; auto|]. congruence.
  Qed.
End Disc.
