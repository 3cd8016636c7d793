(** * NAUTILUS: sessions of forward steps - their length and, in exact
    arithmetic, the closed form of the iteration points. *)
From Coq Require Import ZArith List Bool Lia Reals Lra.
From Verif Require Import Num NumXR Py Np Spec NpFacts XRFacts Hoare PRpm MNautilus SNautilus PNautilus PNautilus2 PNautilus3 PNautilus4.
Import ListNotations.

Lemma says_fun {N : NumOps} (o : option (pyval N)) : says o true -> says o false -> False.
Proof. intros (a & -> & H) (b & E & H'). injection E as <-. congruence. Qed.
Lemma asks_fun {N : NumOps} (d : nt_dict N) m n : asks d m -> asks d n -> m = n.
Proof. intros (o & E1 & E2) (o' & E3 & E4). congruence. Qed.
Lemma nth_rev_cons {A} (a : A) l i b : nth_error (rev (a :: l)) i = Some b -> nth_error (rev l) i = Some b \/ (i = length l /\ b = a).
Proof.
  cbn [rev]. intros H. destruct (Nat.lt_ge_cases i (length l)) as [G|G].
  - left. rewrite nth_error_app1 in H by (rewrite rev_length; exact G). exact H.
  - right. assert (Hi : i < length (rev l ++ [a])) by (apply nth_error_Some; congruence). rewrite app_length, rev_length in Hi. cbn in Hi.
    assert (i = length l) by lia. split; [exact H0|]. rewrite nth_error_app2 in H by (rewrite rev_length; exact G). rewrite rev_length, H0, Nat.sub_diag in H. injection H as <-. reflexivity.
Qed.

Section Forward.
  Context {N : NumOps} (p : nt_problem N) (v : nt_variant N) (eps : N) (k : nat) (ideal nadir : list N).
  Context (WF : nt_wf k p v ideal nadir).
  Definition is_req (q : nt_request N) : Prop := exists z lo up e, q = NReq z lo up e.
  Definition flen (n : Z) (l : list (nt_request N)) (_ : unit) (w : vw N) : Prop :=
    vn w = n /\ (1 <= n)%Z /\ exists q qs, l = q :: qs /\
    (((Z.of_nat (length qs) <= n)%Z /\ vst w = length qs /\ vl w = (n - Z.of_nat (length qs) + 1)%Z /\ is_req q) \/
     ((n < Z.of_nat (length qs))%Z /\ is_stop q)) /\
    forall j q', nth_error (rev l) j = Some q' -> 1 <= j -> ((Z.of_nat j <= n)%Z -> is_req q') /\ ((n < Z.of_nat j)%Z -> is_stop q').
  Lemma shown_req z f q : shown p v ideal nadir z f q -> is_req q.
  Proof. intros (b & e & -> & _). unfold is_req. eauto. Qed.
  Lemma counters_none d n l : nd_n d = None -> counters v d n l = (n, l).
  Proof. unfold counters. intros ->. reflexivity. Qed.
  Lemma forward_seen n s q qs : nt_path p v eps ideal nadir (forward_answers n) s (q :: qs) -> seen p v k ideal nadir tt (flen n) s q qs tt.
  Proof.
    intros H.
    apply (run_seen p v eps k ideal nadir WF (fun _ _ _ _ => tt) tt (forward_answers n) (flen n)); [..|exact H].
    - intros q0 d [_ Hd] H0. right. destruct (Hd H0) as [K|K]; apply K.
    - intros d m x z' q0 [Hd _] HV HAs Hm HC HP HL HS. specialize (Hd eq_refl). assert (m = n) by (eapply asks_fun; eauto). subst m. apply shown_req in HS.
      split; [reflexivity|]. split; [exact Hm|]. exists q0, [NInit]. split; [reflexivity|]. split.
      + left. cbn [length]. cbn [vst vl]. repeat split; [lia|lia|exact HS].
      + intros j q' E Hj. apply nth_rev_cons in E as [E|[E ->]]; [destruct j as [|[|?]]; [lia|discriminate..]|]. cbn in E. subst j. split; [auto|lia].
    - cbn zeta. intros z lo up e qs0 h w d r w' (E1 & E2 & q1 & qs1 & E3 & E4 & E5) Ez Ef Hst _ _ _ _ _ _ [_ Hd] HV HS. destruct h. injection E3 as <- <-.
      specialize (Hd ltac:(discriminate)).
      destruct E4 as [(C1 & C2 & C3 & _)|(_ & x & f & E)]; [|discriminate].
      assert (Hn : nd_n d = None) by (destruct Hd as [K|K]; apply K). assert (Hb : says (nd_back d) false) by (destruct Hd as [K|K]; apply K).
      assert (HH : forall X : Prop, (is_req r -> vn w' = n -> vst w' = S (length qs0) -> vl w' = (n - Z.of_nat (S (length qs0)) + 1)%Z -> (Z.of_nat (S (length qs0)) <= n)%Z -> X) ->
                   (is_stop r -> vn w' = n -> (n < Z.of_nat (S (length qs0)))%Z -> X) -> X).
      { intros X K1 K2. inversion HS as [n' l' HC Hl|n' l' z' q' HC Hl B P Hp Hsh|n' l' x z' q' HC Hl B P Hc Hp Hsh|n' l' z' q' HC Hl B S' Hp Hsh|n' l' HC Hl B S' P|n' l' x z' q' HC Hl B S' P Hc Hp Hsh]; subst w';
          try (exfalso; first [exact (says_fun _ B Hb) | exact (says_fun _ Hp P)]); rewrite (counters_none d _ _ Hn) in HC; injection HC as <- <-; cbn [vn vst vl] in *.
        - apply K2; [unfold is_stop; eauto|exact E1|lia].
        - apply K1; [eapply shown_req; eauto|exact E1|lia..].
        - apply K1; [eapply shown_req; eauto|exact E1|lia..]. }
      apply HH; clear HH.
      + intros K1 K2 K3 K4 K5. split; [exact K2|]. split; [exact E2|]. eexists _, _. split; [reflexivity|]. split; [left; cbn [length]; auto|].
        intros j q' E Hj. apply nth_rev_cons in E as [E|[E ->]]; [exact (E5 j q' E Hj)|]. cbn in E. subst j. split; [auto|lia].
      + intros K1 K2 K3. split; [exact K2|]. split; [exact E2|]. eexists _, _. split; [reflexivity|]. split; [right; cbn [length]; auto|].
        intros j q' E Hj. apply nth_rev_cons in E as [E|[E ->]]; [exact (E5 j q' E Hj)|]. cbn in E. subst j. split; [lia|auto].
    - intros qs0 h w d x f (E1 & E2 & q1 & qs1 & E3 & E4 & E5). destruct h. injection E3 as <- <-. destruct E4 as [(C1 & C2 & C3 & (z & lo & up & e & E))|(C1 & C2)]; [discriminate|].
      split; [exact E1|]. split; [exact E2|]. eexists _, _. split; [reflexivity|]. split; [right; cbn [length]; split; [lia|exact C2]|].
      intros j q' E Hj. apply nth_rev_cons in E as [E|[E ->]]; [exact (E5 j q' E Hj)|]. cbn [length] in E. subst j. split; [lia|auto].
  Qed.
  Lemma forward_len n s q qs : nt_path p v eps ideal nadir (forward_answers n) s (q :: qs) -> qs <> [] ->
    exists w, flen n (q :: qs) tt w.
  Proof.
    intros H Hq. destruct (forward_seen n s q qs H) as [(E & _)|(L & w & _ & _ & _ & G & _)]; [congruence|eauto].
  Qed.
End Forward.

Local Open Scope R_scope.
(** ** Exact arithmetic *)
Lemma rcomb_rcomb a1 a2 c1 c2 (x y : list R) : length x = length y ->
  rcomb c1 (rcomb a1 x a2 y) c2 y = rcomb (c1 * a1) x (c1 * a2 + c2) y.
Proof.
  revert y. induction x as [|u x IH]; intros [|w y] H; try discriminate; [reflexivity|]. cbn [rcomb]. rewrite IH by (injection H; auto). f_equal. ring.
Qed.
Lemma point_xr l z f : l <> 0%Z -> length z = length f ->
  nt_point l (xv z) (xv f : list XR) = Ok (xv (rcomb (IZR (l - 1) / IZR l) z (1 / IZR l) f)).
Proof.
  intros Hl HL. unfold nt_point. destruct (Z.eqb_spec l 0); [contradiction|]. rewrite !coef_xr by exact Hl. apply comb_xr. exact HL.
Qed.
Lemma next_point n h s f : (1 <= h <= n)%Z -> length s = length f ->
  rcomb (IZR (n - h + 1 - 1) / IZR (n - h + 1)) (rbetween (IZR (h - 1) / IZR n) s f) (1 / IZR (n - h + 1)) f = rbetween (IZR h / IZR n) s f.
Proof.
  intros Hh HL. unfold rbetween. rewrite rcomb_rcomb by exact HL.
  assert (H1 : IZR n <> 0) by (apply not_0_IZR; lia). assert (H2 : IZR (n - h + 1) <> 0) by (apply not_0_IZR; lia).
  repeat rewrite ?plus_IZR, ?minus_IZR in *. f_equal; field; split; lra.
Qed.
Lemma dist_xr t s f : 0 <= t -> length s = length f -> f <> s -> nt_dist (xv (rbetween t s f)) (xv s) (xv f : list XR) = Ok (Fin (t * 100) : XR).
Proof.
  intros Ht HL Hne. assert (HL' : length (rbetween t s f) = length s) by (unfold rbetween; apply rcomb_length; exact HL).
  unfold nt_dist. rewrite !bsub_xr by congruence. cbn [rbind]. rewrite !vnorm_sub. unfold rbetween. rewrite rdist_comb by assumption.
  assert (Hd : rdist f s <> 0) by (intros E; apply Hne; apply (rdist_0 f s ltac:(congruence)); exact E).
  change (@ndiv XR) with xdiv. rewrite xdiv_fin by exact Hd. change (@nmul XR) with xmul. cbn [xmul nofZ XR]. f_equal. f_equal. field. exact Hd.
Qed.

Section Exact.
  Context (p : nt_problem XR) (v : nt_variant XR) (eps : XR) (k : nat) (ideal nadir : list XR) (F : list XR -> list R) (s0 : list R) (n : Z).
  Context (WF : nt_wf k p v ideal nadir) (HF : forall x, np_eval p x = xv (F x)) (Hs0 : nt_start v nadir = xv s0).

  (** The j-th request of a session with unchanged preferences. *)
  Definition closed (x : list XR) (j : nat) (q : nt_request XR) : Prop :=
    ((Z.of_nat j <= n)%Z -> exists b e, q = NReq (xv (rbetween (INR j / IZR n) s0 (F x))) b (xv (rbetween (INR j / IZR n) s0 (F x))) e /\
        (F x <> s0 -> e = Fin (INR j / IZR n * 100))) /\
    ((n < Z.of_nat j)%Z -> q = NStop (Some x) (Some (xv (F x)))).
  Definition cf (l : list (nt_request XR)) (_ : unit) (w : vw XR) : Prop :=
    exists wt, np_min p wt nadir (nt_utopian ideal eps) (xv s0) (np_x0 p) = Ok (vx w) /\ vf w = xv (F (vx w)) /\ (1 <= n)%Z /\
    exists q qs, l = q :: qs /\
    (((Z.of_nat (length qs) <= n)%Z /\ (1 <= length qs)%nat /\ vl w = (n - Z.of_nat (length qs) + 1)%Z /\ vz w = xv (rbetween (INR (length qs) / IZR n) s0 (F (vx w))) /\ is_req q) \/
     ((n < Z.of_nat (length qs))%Z /\ is_stop q)) /\
    forall j q', nth_error (rev l) j = Some q' -> (1 <= j)%nat -> closed (vx w) j q'.
  Lemma s0_len : length s0 = k.
  Proof. destruct WF as (_ & _ & _ & W & _). rewrite Hs0, xv_length in W. exact W. Qed.
  Lemma F_len x : length (F x) = k.
  Proof. destruct WF as (_ & _ & _ & _ & W). specialize (W x). rewrite HF, xv_length in W. exact W. Qed.
  Lemma point_closed h x : (1 <= h <= n)%Z ->
    nt_point (n - h + 1) (xv (rbetween (IZR (h - 1) / IZR n) s0 (F x))) (xv (F x)) = Ok (xv (rbetween (IZR h / IZR n) s0 (F x)) : list XR).
  Proof.
    intros Hh. pose proof s0_len. pose proof (F_len x). rewrite point_xr; [|lia|unfold rbetween; rewrite rcomb_length; congruence]. do 2 f_equal.
    apply next_point; [exact Hh|congruence].
  Qed.
  Lemma shown_closed j x q : (1 <= n)%Z -> (Z.of_nat j <= n)%Z -> shown p v ideal nadir (xv (rbetween (INR j / IZR n) s0 (F x))) (xv (F x)) q -> closed x j q.
  Proof.
    intros Hn Hj (b & e & -> & _ & Hd). split; [|lia]. intros _. exists b, e. split; [reflexivity|]. intros Hne. rewrite Hs0 in Hd.
    rewrite dist_xr in Hd; [injection Hd as <-; reflexivity| |pose proof s0_len; pose proof (F_len x); congruence|exact Hne].
    apply Rmult_le_pos; [apply pos_INR|]. left. apply Rinv_0_lt_compat. apply IZR_lt. lia.
  Qed.
  Lemma same_closed s q qs : nt_path p v eps ideal nadir (same_answers n) s (q :: qs) -> qs <> [] -> exists w, cf (q :: qs) tt w.
  Proof.
    intros H Hq. assert (G : seen p v k ideal nadir tt cf s q qs tt); [|destruct G as [(E & _)|(L & w & _ & _ & _ & G & _)]; [congruence|eauto]].
    apply (run_seen p v eps k ideal nadir WF (fun _ _ _ _ => tt) tt (same_answers n) cf); [..|exact H].
    - intros q0 d [_ Hd] H0. right. apply (Hd H0).
    - intros d m x z' q0 [Hd _] HV HAs Hm HC HP HL HS. specialize (Hd eq_refl). assert (m = n) by (eapply asks_fun; eauto). subst m.
      destruct HC as (me & i & wt & _ & _ & _ & HC). rewrite Hs0 in *. exists wt. cbn [vx vf vl vz]. split; [exact HC|]. split; [apply HF|]. split; [exact Hm|].
      assert (Ez : z' = xv (rbetween (INR 1 / IZR n) s0 (F x))).
      { pose proof (point_closed 1 x ltac:(lia)) as P. replace (n - 1 + 1)%Z with n in P by lia.
        replace (rbetween (IZR (1 - 1) / IZR n) s0 (F x)) with s0 in P.
        - rewrite HF in HP. rewrite HP in P. injection P as ->. reflexivity.
        - unfold rbetween. replace (IZR (1 - 1) / IZR n) with 0 by (cbn; field; apply not_0_IZR; lia). rewrite Rminus_0_r. pose proof s0_len as L1. pose proof (F_len x) as L2. rewrite <- L2 in L1.
          clear -L1. revert L1. generalize (F x). induction s0 as [|a l IH]; intros [|b f] L; try discriminate; [reflexivity|]. cbn [rcomb]. rewrite <- IH by (injection L; auto). f_equal. ring. }
      exists q0, [NInit]. split; [reflexivity|]. split.
      + left. cbn [length]. split; [lia|]. split; [lia|]. split; [lia|]. split; [exact Ez|]. eapply shown_req; eauto.
      + intros j q' E Hj. apply nth_rev_cons in E as [E|[E ->]]; [destruct j as [|[|?]]; [lia|discriminate..]|]. cbn [length] in E. subst j.
        apply shown_closed; [exact Hm|exact Hm|]. rewrite <- Ez, <- HF. exact HS.
    - cbn zeta. intros z lo up e qs0 h w d r w' (wt & E0 & Ef' & E2 & q1 & qs1 & E3 & E4 & E5) Ez Ef Hst _ _ _ _ _ _ [_ Hd] HV HS. destruct h. injection E3 as <- <-.
      specialize (Hd ltac:(discriminate)).
      destruct E4 as [(C1 & C1' & C3 & C4 & _)|(_ & x & f & E)]; [|discriminate].
      destruct Hd as (Hb & Hp & Hn).
      inversion HS as [n' l' HC Hl|n' l' z' q' HC Hl B P Hpt Hsh|n' l' x z' q' HC Hl B P Hc Hpt Hsh|n' l' z' q' HC Hl B S' Hpt Hsh|n' l' HC Hl B S' P|n' l' x z' q' HC Hl B S' P Hc Hpt Hsh]; subst w';
          try (exfalso; first [exact (says_fun _ B Hb) | exact (says_fun _ Hp P)]); rewrite (counters_none v d _ _ Hn) in HC; injection HC as <- <-; cbn [vn vst vl] in *.
      + exists wt. cbn [vx vf vl vz]. split; [exact E0|]. split; [exact Ef'|]. split; [exact E2|]. eexists _, _. split; [reflexivity|].
        split; [right; cbn [length]; split; [lia|unfold is_stop; eauto]|].
        intros j q' E Hj. apply nth_rev_cons in E as [E|[E ->]]; [exact (E5 j q' E Hj)|]. cbn [length] in E. subst j. split; [lia|]. intros _. rewrite Ef'. reflexivity.
      + assert (Ez' : z' = xv (rbetween (INR (S (length qs0)) / IZR n) s0 (F (vx w)))).
        { pose proof (point_closed (Z.of_nat (S (length qs0))) (vx w) ltac:(lia)) as Q.
          rewrite C3, C4, Ef' in Hpt. rewrite INR_IZR_INZ in Hpt. rewrite INR_IZR_INZ.
          replace (Z.of_nat (S (length qs0)) - 1)%Z with (Z.of_nat (length qs0)) in Q by lia.
          replace (n - Z.of_nat (S (length qs0)) + 1)%Z with (n - Z.of_nat (length qs0) + 1 - 1)%Z in Q by lia. rewrite Q in Hpt. injection Hpt as <-. reflexivity. }
        exists wt. cbn [vx vf vl vz]. split; [exact E0|]. split; [exact Ef'|]. split; [exact E2|]. eexists _, _. split; [reflexivity|]. split.
        * left. cbn [length]. split; [lia|]. split; [lia|]. split; [lia|]. split; [exact Ez'|]. eapply shown_req; eauto.
        * intros j q2 E Hj. apply nth_rev_cons in E as [E|[E ->]]; [exact (E5 j q2 E Hj)|]. cbn [length] in E. subst j.
          apply shown_closed; [exact E2|lia|]. rewrite <- Ez', <- Ef'. exact Hsh.
    - intros qs0 h w d x f (wt & E0 & Ef' & E2 & q1 & qs1 & E3 & E4 & E5). destruct h. injection E3 as <- <-. destruct E4 as [(C1 & C2 & C3 & C4 & (z & lo & up & e & E))|(C1 & C2)]; [discriminate|].
      exists wt. split; [exact E0|]. split; [exact Ef'|]. split; [exact E2|]. eexists _, _. split; [reflexivity|]. split; [right; cbn [length]; split; [lia|exact C2]|].
      intros j q' E Hj. apply nth_rev_cons in E as [E|[E ->]]; [exact (E5 j q' E Hj)|]. cbn [length] in E. subst j. split; [lia|]. intros _.
      assert (H1 : nth_error (rev (NStop x f :: qs0)) (length qs0) = Some (NStop x f)).
      { cbn [rev]. rewrite nth_error_app2 by (rewrite rev_length; lia). rewrite rev_length, Nat.sub_diag. reflexivity. }
      apply (E5 _ _ H1); [|lia]. lia.
  Qed.
End Exact.
