(** * Pareto Navigator: solutions of a data problem; points inside a hull. *)
From Coq Require Import ZArith List Bool Lia Reals Lra.
From Verif Require Import Num NumXR Py Np Spec NpFacts XRFacts PAsf MRpm MParetoNav SParetoNav PParetoNav PParetoNav2 PParetoNav3 PParetoNav4 PParetoNav5 PParetoNav6 PParetoNav7 PParetoNav8.
Import ListNotations.
Open Scope R_scope.

Lemma simple_asf_xr f q : length f = length q -> f <> [] -> simple_asf (xv f : list XR) (CVec (xv q)) = Ok (Fin (rlmax (rsub f q)) : XR).
Proof.
  intros Hl Hn. unfold simple_asf. rewrite bcast2_eq by (rewrite !xv_length; exact Hl). cbn [rbind].
  replace (zipw (@simple_term XR) (xv f) (xv q)) with (xv (rsub f q)).
  - apply npmax_xr. destruct f, q; try discriminate; congruence.
  - clear. revert q. induction f as [|x f IH]; intros [|y q]; try reflexivity. cbn [rsub zipw xv map]. apply (f_equal2 cons); [|apply IH].
    unfold simple_term. rewrite xisnan_fin. change (Fin (x - y) = xmul (Fin 1) (xsub (Fin x) (Fin y)) :> xr). cbn [xmul xsub]. f_equal. ring.
Qed.
Lemma disc_total k objs q : objs <> [] -> Forall (fun r => length r = k) objs -> length q = k -> (0 < k)%nat ->
  exists i, pn_disc (xm objs : list (list XR)) (CVec (xv q)) = Ok i /\ (i < length objs)%nat.
Proof.
  intros Hn HM Lq Hk. unfold pn_disc.
  assert (E : rseq (map (fun f => simple_asf f (CVec (xv q))) (xm objs : list (list XR))) = Ok (xv (map (fun f => rlmax (rsub f q)) objs))).
  { clear Hn. induction HM as [|r objs Hr HM IH]; [reflexivity|]. cbn [xm map xv rseq]. fold (xm objs). rewrite simple_asf_xr; [|lia|destruct r; [cbn in Hr; lia|discriminate]].
    cbn [rbind]. rewrite IH. reflexivity. }
  rewrite E. cbn [rbind]. destruct (npnanargmin (xv (map (fun f => rlmax (rsub f q)) objs) : list XR)) as [i|er] eqn:En.
  - exists i. split; [reflexivity|]. apply (npnanargmin_ok XR_ord) in En. destruct En as (x & Hx & _). apply nth_lt in Hx. rewrite xv_length, map_length in Hx. exact Hx.
  - exfalso. assert (HA : exists e0, npnanargmin (xv (map (fun f => rlmax (rsub f q)) objs) : list XR) = Raise e0) by eauto.
    apply (npnanargmin_raise XR_ord) in HA. destruct objs as [|r objs]; [congruence|]. inversion HA as [|y ys Hy _]. subst. rewrite xisnan_fin in Hy. discriminate.
Qed.

Lemma rdot_zero_r a n : rdot a (repeat 0 n) = 0.
Proof. revert n. induction a as [|x a IH]; intros [|n]; cbn; try reflexivity. rewrite IH. ring. Qed.
Lemma rdot_rcomb a w p v z : length p = length z -> rdot a (rcomb w p v z) = w * rdot a p + v * rdot a z.
Proof.
  revert p z. induction a as [|x a IH]; intros [|y p] [|y' z] Hl; try discriminate; cbn; try ring. unfold rcomb in IH. rewrite IH by (cbn in Hl; lia). ring.
Qed.
(** A half space that contains the points contains their hull. *)
Lemma hull_half k pts a a0 ws : Forall (fun p => length p = k) pts -> length ws = length pts -> Forall (Rle 0) ws ->
  (forall p, In p pts -> rdot a p + a0 <= 0) -> rdot a (wsum k ws pts) + rsum ws * a0 <= 0.
Proof.
  revert ws. induction pts as [|p pts IH]; intros [|w ws] HM Hl Hw HP; try discriminate; cbn [wsum rsum].
  - rewrite rdot_zero_r. lra.
  - inversion HM as [|p0 l0 Lp HM']; subst. inversion Hw as [|w0 l0 Hw0 Hw']; subst. rewrite rdot_rcomb by (rewrite wsum_len; auto).
    specialize (IH ws HM' ltac:(cbn in Hl; lia) Hw' ltac:(intros; apply HP; right; assumption)). specialize (HP p (or_introl eq_refl)). nra.
Qed.
Lemma hull_inside k pts eqs z : Forall (fun p => length p = k) pts -> (forall p, In p pts -> inside eqs p) -> in_hull k pts z -> inside eqs z.
Proof.
  intros HM HP (ws & Hl & Hw & Hs & ->) a a0 Hin. pose proof (hull_half k pts a a0 ws HM Hl Hw) as H. rewrite Hs in H.
  assert (rdot a (wsum k ws pts) + 1 * a0 <= 0); [|lra]. apply H. intros p Hp. exact (HP p Hp a a0 Hin).
Qed.
Lemma hull_more k pts l z : Forall (fun p => length p = k) pts -> Forall (fun p => length p = k) l -> in_hull k pts z -> in_hull k (pts ++ l) z.
Proof.
  revert pts. induction l as [|p l IH]; intros pts HM HL H; [rewrite app_nil_r; exact H|]. inversion HL; subst.
  replace (pts ++ p :: l) with ((pts ++ [p]) ++ l) by (rewrite <- app_assoc; reflexivity). apply IH; [apply Forall_app; auto|assumption|].
  apply hull_snoc; auto.
Qed.

Lemma rlmax_fold_le l x t : fold_left Rmax l x <= t <-> x <= t /\ Forall (fun y => y <= t) l.
Proof.
  revert x. induction l as [|y l IH]; intros x; cbn [fold_left].
  - split; [intros H; split; [exact H|constructor]|intros [H _]; exact H].
  - rewrite IH. split.
    + intros [H H']. pose proof (Rmax_l x y). pose proof (Rmax_r x y). split; [lra|constructor; [lra|exact H']].
    + intros [H H']. inversion H'; subst. split; [apply Rmax_lub; assumption|assumption].
Qed.
Lemma rlmax_dev f q t : f <> [] -> length f = length q -> (rlmax (rsub f q) <= t <-> Forall2 (fun x c => x - c <= t) f q).
Proof.
  intros Hn Hl. destruct f as [|x f], q as [|c q]; try discriminate; [congruence|]. cbn [rsub zipw rlmax]. rewrite rlmax_fold_le. fold (rsub f q). injection Hl as Hl. clear Hn. split.
  - intros [H1 H2]. constructor; [exact H1|]. clear H1 x c. revert q Hl H2. induction f as [|x f IH]; intros [|c q] Hl H; try discriminate; constructor; cbn [rsub zipw] in H; inversion H; subst; auto.
  - intros H. inversion H as [|? ? ? ? H1 H2]; subst. split; [exact H1|]. clear H1 H x c. revert q Hl H2. induction f as [|x f IH]; intros [|c q] Hl H; try discriminate; constructor; inversion H; subst; auto.
Qed.
