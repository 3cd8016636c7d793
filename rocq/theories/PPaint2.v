(** * Proofs about PAINT: settings of Rule 2, and exact tests over the reals. *)
From Coq Require Import ZArith List Bool Lia Reals Lra Permutation Sorted.
From Verif Require Import Num NumXR Py Np Spec NpFacts XRFacts PAsf MRpm MParetoNav SParetoNav PParetoNav6 MPaint SPaint PPaint.
Import ListNotations.

Lemma rbind_ext {A B} (r r' : res A) (f g : A -> res B) : r = r' -> (forall a, f a = g a) -> rbind r f = rbind r' g.
Proof. intros -> H. destruct r' as [a|x]; [apply H|reflexivity]. Qed.

Section Ext.
  Context {N : NumOps} {Cfg : Type}.
  Context (e e' : pt_env N Cfg) (cfg : Cfg) (P : list (list N)).
  Hypothesis Htri : pt_delaunay e P = pt_delaunay e' P.
  Hypothesis Hgen : forall S, pt_generate e S = pt_generate e' S.
  Hypothesis Hinh : forall v, pt_inherent e v (Some cfg) = pt_inherent e' v (Some cfg).
  Hypothesis Hout : forall o v, pt_dominates e (Outcome o) (Polytope v) (Some cfg) = pt_dominates e' (Outcome o) (Polytope v) (Some cfg) /\
                                pt_dominates e (Polytope v) (Outcome o) (Some cfg) = pt_dominates e' (Polytope v) (Outcome o) (Some cfg).
  Hypothesis Hdef : forall v w, pt_dominates e (Polytope v) (Polytope w) None = pt_dominates e' (Polytope v) (Polytope w) None.
  Lemma conflict_ext v os : pt_conflict e cfg v os = pt_conflict e' cfg v os.
  Proof.
    clear Htri Hgen Hinh Hdef. induction os as [|o os IH]; cbn; [reflexivity|]. rewrite (proj1 (Hout o v)), (proj2 (Hout o v)), IH. reflexivity.
  Qed.
  Lemma rule1_ext is : forall D d, pt_rule1 e cfg P is D d = pt_rule1 e' cfg P is D d.
  Proof.
    induction is as [|i is IH]; intros D d; cbn [pt_rule1]; [reflexivity|].
    apply rbind_ext; [reflexivity|intros r]. apply rbind_ext; [reflexivity|intros v]. apply rbind_ext; [apply Hinh|intros nd].
    apply rbind_ext; [destruct nd; cbn [negb]; [apply conflict_ext|reflexivity]|intros [|]; [|apply IH]]. apply rbind_ext; [reflexivity|intros D'; apply IH].
  Qed.
  Lemma clash_ext T i ls : pt_clash e P T i ls = pt_clash e' P T i ls.
  Proof.
    induction ls as [|l ls IH]; cbn [pt_clash]; [reflexivity|].
    apply rbind_ext; [reflexivity|intros ri]. apply rbind_ext; [reflexivity|intros vi]. apply rbind_ext; [reflexivity|intros rl]. apply rbind_ext; [reflexivity|intros h].
    destruct (h =? -1)%Z; [exact IH|]. apply rbind_ext; [reflexivity|intros vl]. apply rbind_ext; [apply Hdef|intros [|]; [reflexivity|]].
    apply rbind_ext; [apply Hdef|intros [|]; [reflexivity|exact IH]].
  Qed.
  Lemma rule2_ext is : forall T, pt_rule2 e P is T = pt_rule2 e' P is T.
  Proof.
    induction is as [|i is IH]; intros T; cbn [pt_rule2]; [reflexivity|]. apply rbind_ext; [apply clash_ext|intros [|]; [|apply IH]].
    apply rbind_ext; [reflexivity|intros r]. apply rbind_ext; [reflexivity|intros T'; apply IH].
  Qed.
  Lemma run_ext : pt_run e cfg P = pt_run e' cfg P.
  Proof.
    unfold pt_run. rewrite Htri. destruct (pt_delaunay e' P) as [S| |x]; [|reflexivity|reflexivity].
    apply rbind_ext; [apply Hgen|intros D]. apply rbind_ext; [apply rule1_ext|intros Dd]. apply rbind_ext; [reflexivity|intros T]. apply rbind_ext; [apply rule2_ext|reflexivity].
  Qed.
End Ext.

Open Scope R_scope.
Lemma wsum_same k p ws : length p = k -> wsum k ws (repeat p (length ws)) = map (Rmult (rsum ws)) p.
Proof.
  intros Hp. induction ws as [|w ws IH]; cbn [length repeat wsum rsum].
  - subst k. induction p as [|x p IHp]; cbn; [reflexivity|]. f_equal; [lra|exact IHp].
  - rewrite IH. clear. induction p as [|x p IHp]; cbn; [reflexivity|]. f_equal; [lra|exact IHp].
Qed.
Lemma hull_same k p n q : length p = k -> in_hull k (repeat p n) q -> q = p.
Proof.
  intros Hp (ws & L & _ & Hs & ->). rewrite repeat_length in L. subst n. rewrite wsum_same by exact Hp. rewrite Hs. clear.
  induction p as [|x p IH]; cbn; [reflexivity|]. f_equal; [lra|exact IH].
Qed.
Lemma hull_single k p q : length p = k -> in_hull k [p] q -> q = p.
Proof. intros Hp. apply (hull_same k p 1 q Hp). Qed.
Lemma hull_self k p n : length p = k -> in_hull k (repeat p (S n)) p.
Proof. intros Hp. apply hull_point; [apply Forall_forall; intros q Hq; apply repeat_spec in Hq; rewrite Hq; exact Hp|left; reflexivity]. Qed.
Lemma rdom_irrefl p : ~ rdom p p.
Proof. intros (H1 & H2). contradiction. Qed.

Lemma xm_nth_inv P n x : nth_error (xm P : list (list XR)) n = Some x -> exists p, nth_error P n = Some p /\ x = xv p.
Proof. unfold xm. rewrite nth_error_map. destruct (nth_error P n) as [p|]; cbn; intros H; [injection H as <-; eauto|discriminate]. Qed.
(** The vertices of a row are real points, outcomes. *)
Lemma vertices_real P r v : vertices (xm P : list (list XR)) r v -> exists w, v = xm w /\ Forall (fun p => In p P) w /\ (r <> [] -> w <> []).
Proof.
  intros H. induction H as [|z p r v (Hz & Hp) H IH]; [exists []; split; [reflexivity|split; [constructor|congruence]]|].
  destruct IH as (w & -> & HF & _). apply xm_nth_inv in Hp. destruct Hp as (q & Hq & ->). exists (q :: w). split; [reflexivity|].
  split; [constructor; [eapply nth_error_In; exact Hq|exact HF]|discriminate].
Qed.
Lemma vertices_repeat {N : NumOps} (P : list (list N)) j p n : nth_error P j = Some p -> vertices P (repeat (Z.of_nat j) n) (repeat p n).
Proof. intros H. unfold vertices. induction n as [|n IH]; cbn; constructor; [split; [lia|rewrite Nat2Z.id; exact H]|exact IH]. Qed.
Lemma xm_repeat p n : xm (repeat p n) = repeat (xv p) n.
Proof. unfold xm. induction n; cbn; [reflexivity|f_equal; assumption]. Qed.

Section Exact.
  Context {Cfg : Type} (k : nat) (e : pt_env XR Cfg) (cfg : Cfg) (P : list (list R)).
  Hypothesis HE : pt_exact k e.

  Lemma exact_dom_true a b v w c : pt_points a v -> pt_points b w -> v <> [] -> w <> [] -> pt_dominates e a b c = Ok true ->
    exists p q, in_hull k v p /\ in_hull k w q /\ rdom p q.
  Proof. intros H1 H2 H3 H4 H. destruct (proj2 HE a b v w c H1 H2 H3 H4) as [(_ & E)|(E & _)]; [exact E|congruence]. Qed.
  Lemma exact_dom_false a b v w c : pt_points a v -> pt_points b w -> v <> [] -> w <> [] -> pt_dominates e a b c = Ok false ->
    forall p q, in_hull k v p -> in_hull k w q -> ~ rdom p q.
  Proof. intros H1 H2 H3 H4 H. destruct (proj2 HE a b v w c H1 H2 H3 H4) as [(E & _)|(_ & E)]; [congruence|exact E]. Qed.
  Lemma points_out p : pt_points (Outcome (xv p)) [p].
  Proof. exists p. auto. Qed.

  Lemma passes_nd v : v <> [] -> passes e cfg (xm P) (xm v) -> forall p q, in_hull k v p -> in_hull k v q -> ~ rdom p q.
  Proof. intros Hv (H & _). destruct (proj1 HE v (Some cfg) Hv) as [(_ & E)|(E & _)]; [exact E|congruence]. Qed.
  Lemma passes_out v o : Forall (fun p => length p = k) P -> v <> [] -> passes e cfg (xm P) (xm v) -> In o P -> forall p, in_hull k v p -> ~ rdom o p /\ ~ rdom p o.
  Proof.
    intros HM Hv (_ & H) Ho p Hp. destruct (H (xv o)) as (H1 & H2); [unfold xm; apply in_map; exact Ho|].
    assert (Ho' : in_hull k [o] o) by (apply hull_point; [rewrite Forall_forall in HM; constructor; [apply HM; exact Ho|constructor]|left; reflexivity]).
    split.
    - apply (exact_dom_false _ _ [o] v _ (points_out o) (eq_refl : pt_points (Polytope (xm v)) v) ltac:(discriminate) Hv H1); assumption.
    - apply (exact_dom_false _ _ v [o] _ (eq_refl : pt_points (Polytope (xm v)) v) (points_out o) Hv ltac:(discriminate) H2); assumption.
  Qed.
  Lemma apart_nd v w : v <> [] -> w <> [] -> apart e (xm v) (xm w) -> forall p q, in_hull k v p -> in_hull k w q -> ~ rdom p q /\ ~ rdom q p.
  Proof.
    intros Hv Hw (H1 & H2) p q Hp Hq. split.
    - apply (exact_dom_false _ _ v w _ (eq_refl : pt_points (Polytope (xm v)) v) (eq_refl : pt_points (Polytope (xm w)) w) Hv Hw H1); assumption.
    - apply (exact_dom_false _ _ w v _ (eq_refl : pt_points (Polytope (xm w)) w) (eq_refl : pt_points (Polytope (xm v)) v) Hw Hv H2); assumption.
  Qed.
End Exact.
