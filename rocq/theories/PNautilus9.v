(** * NAUTILUS with IEEE doubles: rounding. *)
From Coq Require Import ZArith List Bool Lia Reals Lra Floats.
From Flocq Require Import Core.
From Verif Require Import Num NumF64 Py Np Spec NpFacts Hoare PRpm MNautilus SNautilus PNautilus PNautilus2 PNautilus3 PNautilus4 PNautilus5 F64Sums F64Step SFloat F64Vec F64Walk.
Import ListNotations.
Local Open Scope R_scope.

Ltac len := first [eassumption | symmetry; eassumption | etransitivity; [eassumption|]; first [eassumption | symmetry; eassumption] | etransitivity; [symmetry; eassumption|]; eassumption].
Lemma point_f l (z f w : list F64) : length z = length f -> nt_point l z f = Ok w -> w = zipw (fstep l) z f.
Proof. intros L H. unfold nt_point in H. destruct (l =? 0)%Z; [discriminate|]. apply step_vec; auto. Qed.
Lemma dist_f (z start f : list F64) d : length z = length start -> length f = length start -> nt_dist z start f = Ok d -> d = fpct z f start.
Proof. intros L1 L2 H. unfold nt_dist in H. rewrite !bcast2_eq in H by auto. cbn [rbind] in H. injection H as <-. reflexivity. Qed.

Section Doubles.
  Context (p : nt_problem F64) (v : nt_variant F64) (eps : F64) (k : nat) (ideal nadir : list F64) (e n : Z).
  Context (WF : nt_wf k p v ideal nadir) (He : (-1000 <= e <= 1019)%Z) (Hn : (n <= 2 ^ 49)%Z)
    (BE : forall x, fin_below e (np_eval p x)) (Bs : fin_below e (nt_start v nadir)).
  Notation start := (nt_start v nadir).

  Definition closed_f (x : list F64) (j : nat) (q : nt_request F64) : Prop :=
    ((Z.of_nat j <= n)%Z -> exists z b d, q = NReq z b z d /\ walked_vec n (Z.of_nat j) e start (np_eval p x) z /\ d = fpct z (np_eval p x) start /\
        (Z.of_nat j = n -> Forall2 (fun x y => ffin x /\ fval x = fval y) z (np_eval p x))) /\
    ((n < Z.of_nat j)%Z -> q = NStop (Some x) (Some (np_eval p x))).
  Definition cff (l : list (nt_request F64)) (_ : unit) (w : vw F64) : Prop :=
    exists wt, np_min p wt nadir (nt_utopian ideal eps) start (np_x0 p) = Ok (vx w) /\ vf w = np_eval p (vx w) /\ (1 <= n)%Z /\
    exists q qs, l = q :: qs /\
    (((Z.of_nat (length qs) <= n)%Z /\ (1 <= length qs)%nat /\ vl w = (n - Z.of_nat (length qs) + 1)%Z /\ walked_vec n (Z.of_nat (length qs)) e start (np_eval p (vx w)) (vz w) /\ is_req q) \/
     ((n < Z.of_nat (length qs))%Z /\ is_stop q)) /\
    forall j q', nth_error (rev l) j = Some q' -> (1 <= j)%nat -> closed_f (vx w) j q'.
  Lemma start_len : length start = k.
  Proof. apply WF. Qed.
  Lemma eval_len x : length (np_eval p x) = k.
  Proof. apply WF. Qed.

  Lemma point_walk t x (z w : list F64) : (0 <= t < n)%Z -> walked_vec n t e start (np_eval p x) z -> nt_point (n - t) z (np_eval p x) = Ok w ->
    walked_vec n (t + 1) e start (np_eval p x) w /\ ((t + 1 = n)%Z -> Forall2 (fun x y => ffin x /\ fval x = fval y) w (np_eval p x)).
  Proof.
    intros Ht W H. assert (L : length z = length (np_eval p x)) by (destruct W as (_ & L & _); len). apply point_f in H; [|exact L]. subst w. split.
    - apply walkv_next; auto. lia.
    - intros E. replace (n - t)%Z with 1%Z by lia. apply step_last_same; [exact L| |apply (within_fin _ _ (BE x))].
      eapply within_fin. eapply walkv_below; [| |exact Bs|apply (BE x)|exact W]; lia.
  Qed.
  Lemma shown_walk j x z q : (Z.of_nat j <= n)%Z -> walked_vec n (Z.of_nat j) e start (np_eval p x) z ->
    (Z.of_nat j = n -> Forall2 (fun x y => ffin x /\ fval x = fval y) z (np_eval p x)) ->
    shown p v ideal nadir z (np_eval p x) q -> closed_f x j q.
  Proof.
    intros Hj W Hl (b & d & -> & _ & Hd). split; [|lia]. intros _. exists z, b, d. split; [reflexivity|]. split; [exact W|]. split; [|exact Hl].
    destruct W as (L1 & L2 & _). pose proof start_len. pose proof (eval_len x). apply dist_f in Hd; [exact Hd|len|len].
  Qed.
  Lemma same_doubles s q qs : nt_path p v eps ideal nadir (same_answers n) s (q :: qs) -> qs <> [] -> exists w, cff (q :: qs) tt w.
  Proof.
    intros H Hq. assert (G : seen p v k ideal nadir tt cff s q qs tt); [|destruct G as [(E & _)|(L & w & _ & _ & _ & G & _)]; [congruence|eauto]].
    apply (run_seen p v eps k ideal nadir WF (fun _ _ _ _ => tt) tt (same_answers n) cff); [..|exact H].
    - intros q0 d [_ Hd] H0. right. apply (Hd H0).
    - intros d m x z' q0 [Hd _] HV HAs Hm HC HP HL HS. specialize (Hd eq_refl). assert (m = n) by (eapply asks_fun; eauto). subst m.
      destruct HC as (me & i & wt & _ & _ & _ & HC). exists wt. cbn [vx vf vl vz]. split; [exact HC|]. split; [reflexivity|]. split; [exact Hm|].
      pose proof start_len as S1. pose proof (eval_len x) as S2.
      assert (W0 : walked_vec n 0 e start (np_eval p x) start) by (apply walkv_start; [len|exact Bs]).
      destruct (point_walk 0 x start z') as [W1 W2]; [lia|exact W0|rewrite Z.sub_0_r; exact HP|].
      exists q0, [NInit]. split; [reflexivity|]. split.
      + left. cbn [length]. split; [lia|]. split; [lia|]. split; [lia|]. split; [exact W1|]. eapply shown_req; eauto.
      + intros j q' E Hj. apply nth_rev_cons in E as [E|[E ->]]; [destruct j as [|[|?]]; [lia|discriminate..]|]. cbn [length] in E. subst j.
        apply (shown_walk 1 x z'); [exact Hm|exact W1|exact W2|exact HS].
    - cbn zeta. intros z lo up d0 qs0 h w d r w' (wt & E0 & Ef' & E2 & q1 & qs1 & E3 & E4 & E5) Ez Ef Hst _ _ _ _ _ _ [_ Hd] HV HS. destruct h. injection E3 as <- <-.
      specialize (Hd ltac:(discriminate)).
      destruct E4 as [(C1 & C1' & C3 & C4 & _)|(_ & x & f & E)]; [|discriminate].
      destruct Hd as (Hb & Hp & Hnn).
      inversion HS as [n' l' HC Hl|n' l' z' q' HC Hl B P Hpt Hsh|n' l' x z' q' HC Hl B P Hc Hpt Hsh|n' l' z' q' HC Hl B S' Hpt Hsh|n' l' HC Hl B S' P|n' l' x z' q' HC Hl B S' P Hc Hpt Hsh]; subst w';
          try (exfalso; first [exact (says_fun _ B Hb) | exact (says_fun _ Hp P)]); rewrite (counters_none v d _ _ Hnn) in HC; injection HC as <- <-; cbn [vn vst vl] in *.
      + exists wt. cbn [vx vf vl vz]. split; [exact E0|]. split; [exact Ef'|]. split; [exact E2|]. eexists _, _. split; [reflexivity|].
        split; [right; cbn [length]; split; [lia|unfold is_stop; eauto]|].
        intros j q' E Hj. apply nth_rev_cons in E as [E|[E ->]]; [exact (E5 j q' E Hj)|]. cbn [length] in E. subst j. split; [lia|]. intros _. rewrite Ef'. reflexivity.
      + rewrite C3, Ef' in Hpt. destruct (point_walk (Z.of_nat (length qs0)) (vx w) (vz w) z') as [W1 W2]; [lia|exact C4|replace (n - Z.of_nat (length qs0))%Z with (n - Z.of_nat (length qs0) + 1 - 1)%Z by lia; exact Hpt|].
        replace (Z.of_nat (length qs0) + 1)%Z with (Z.of_nat (S (length qs0))) in W1, W2 by lia.
        exists wt. cbn [vx vf vl vz]. split; [exact E0|]. split; [exact Ef'|]. split; [exact E2|]. eexists _, _. split; [reflexivity|]. split.
        * left. cbn [length]. split; [lia|]. split; [lia|]. split; [lia|]. split; [exact W1|]. eapply shown_req; eauto.
        * intros j q2 E Hj. apply nth_rev_cons in E as [E|[E ->]]; [exact (E5 j q2 E Hj)|]. cbn [length] in E. subst j.
          apply (shown_walk _ _ z'); [lia|exact W1|exact W2|]. rewrite <- Ef'. exact Hsh.
    - intros qs0 h w d x f (wt & E0 & Ef' & E2 & q1 & qs1 & E3 & E4 & E5). destruct h. injection E3 as <- <-. destruct E4 as [(C1 & C2 & C3 & C4 & (z & lo & up & d0 & E))|(C1 & C2)]; [discriminate|].
      exists wt. split; [exact E0|]. split; [exact Ef'|]. split; [exact E2|]. eexists _, _. split; [reflexivity|]. split; [right; cbn [length]; split; [lia|exact C2]|].
      intros j q' E Hj. apply nth_rev_cons in E as [E|[E ->]]; [exact (E5 j q' E Hj)|]. cbn [length] in E. subst j. split; [lia|]. intros _.
      assert (H1 : nth_error (rev (NStop x f :: qs0)) (length qs0) = Some (NStop x f)).
      { cbn [rev]. rewrite nth_error_app2 by (rewrite rev_length; lia). rewrite rev_length, Nat.sub_diag. reflexivity. }
      apply (E5 _ _ H1); [|lia]. lia.
  Qed.
End Doubles.
