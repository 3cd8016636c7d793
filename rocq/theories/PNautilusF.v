(** * NAUTILUS in IEEE doubles: points are monotone up to rounding (C45). *)
From Coq Require Import ZArith List Bool Lia Reals Lra Sorted Floats.
From Flocq Require Import Core.
From Verif Require Import Num NumF64 Py Np Spec NpFacts F64Sums F64Step SFloat F64Vec F64Walk Hoare PRpm MNautilus SNautilus PNautilus PNautilus2 PNautilus3 PNautilus4 PNautilus5 PNautilus6 SNautilusF.
Import ListNotations.
Local Open Scope R_scope.

Lemma exc_le c c' a b : c <= c' -> exceeds_by c a b -> exceeds_by c' a b.
Proof. intros H G. induction G; constructor; auto. lra. Qed.
Lemma exc_len c a b : exceeds_by c a b -> length a = length b.
Proof. apply Forall2_len. Qed.
Lemma exc_trans c c' a b d : exceeds_by c a b -> exceeds_by c' b d -> exceeds_by (c + c') a d.
Proof.
  intros H. revert d. induction H as [|x y a b Hx H IH]; intros d G; inversion G; subst; constructor; [lra|]. apply IH. assumption.
Qed.
Lemma exc_refl a : exceeds_by 0 a a.
Proof. induction a; constructor; auto. lra. Qed.
Lemma slack_pos e : 0 <= step_slack e.
Proof. unfold step_slack. apply Rmult_le_pos; apply bpow_ge_0. Qed.

Lemma grown_le t t' e v : (t <= t')%Z -> grown t e v -> grown t' e v.
Proof.
  intros H. apply Forall_impl. intros x [A B]. split; auto. eapply Rle_trans; [exact B|]. apply Rmult_le_compat_r; [apply bpow_ge_0|].
  assert (IZR t * bpow radix2 (-49) <= IZR t' * bpow radix2 (-49)); [|lra]. apply Rmult_le_compat_r; [apply bpow_ge_0|apply IZR_le; lia].
Qed.
(** Like [grown_next], towards a point that has grown itself. *)
Lemma grown_next2 n t e (v b : list F64) : (0 <= t < 2 ^ 49)%Z -> (1 <= n <= 2 ^ 53)%Z -> (-1000 <= e <= 1019)%Z -> length v = length b ->
  grown t e v -> grown t e b -> grown (t + 1) e (zipw (fstep n) v b).
Proof.
  intros Ht Hn He L Hv Hb. assert (Hv' := grown_below t e v ltac:(lia) Hv). assert (Hb' := grown_below t e b ltac:(lia) Hb). apply Forall_forall. intros z Hz. apply In_nth_error in Hz. destruct Hz as (j & Hz).
  apply zipw_nth_inv in Hz. destruct Hz as (x & y & Hx & Hy & ->).
  destruct (within_nth _ _ _ _ Hb' Hy) as [Fy By]. destruct (within_nth _ _ _ _ Hv' Hx) as [Fx Bx].
  assert (Gx : Rabs (fval x) <= (1 + IZR t * bpow radix2 (-49)) * bpow radix2 e).
  { unfold grown in Hv. rewrite Forall_forall in Hv. apply Hv. eapply nth_error_In; eauto. }
  assert (Gy : Rabs (fval y) <= (1 + IZR t * bpow radix2 (-49)) * bpow radix2 e).
  { unfold grown in Hb. rewrite Forall_forall in Hb. apply Hb. eapply nth_error_In; eauto. }
  destruct (step_err n e x y) as [G E]; auto. split; auto.
  destruct (coef_facts n) as (C1 & C2 & C3); [lia|]. set (c1 := IZR (n - 1) / IZR n) in *. set (c2 := 1 / IZR n) in *.
  assert (B : Rabs (c1 * fval x + c2 * fval y) <= (1 + IZR t * bpow radix2 (-49)) * bpow radix2 e).
  { eapply Rle_trans; [apply Rabs_triang|]. rewrite !Rabs_mult, (Rabs_pos_eq c1), (Rabs_pos_eq c2) by auto. nra. }
  replace (fval (fstep n x y)) with ((c1 * fval x + c2 * fval y) + (fval (fstep n x y) - (c1 * fval x + c2 * fval y))) by ring.
  eapply Rle_trans; [apply Rabs_triang|]. rewrite plus_IZR. lra.
Qed.

(** One step from [z] towards [f], which may exceed [z] by [c]. *)
Lemma step_exc n e c (z f : list F64) : (1 <= n <= 2 ^ 53)%Z -> (-1000 <= e <= 1019)%Z -> fin_below (e + 1) z -> fin_below (e + 1) f -> exceeds_by c f z ->
  exceeds_by (1 / IZR n * c + step_slack e) (zipw (fstep n) z f) z /\ exceeds_by (IZR (n - 1) / IZR n * c + step_slack e) f (zipw (fstep n) z f).
Proof.
  intros Hn He Hz Hf H. destruct (coef_facts n) as (C1 & C2 & C3); [lia|]. set (c1 := IZR (n - 1) / IZR n) in *. set (c2 := 1 / IZR n) in *.
  revert Hz Hf. induction H as [|x y f z Hx H IH]; intros Hz Hf; [split; constructor|]. inversion Hz as [|? ? [Fy By] Hz']; inversion Hf as [|? ? [Fx Bx] Hf']; subst.
  destruct (IH Hz' Hf') as (I1 & I2). destruct (step_err n e y x Hn He Fy Fx By Bx) as (_ & E). fold c1 c2 in E. fold (step_slack e) in E. apply Rabs_le_inv in E.
  cbn [zipw]. split; constructor; auto; cbn beta; nra.
Qed.
(** A short step: half of the way back from [z] to [z0]. *)
Lemma half_exc e d (z z0 : list F64) : (-1000 <= e <= 1019)%Z -> fin_below (e + 1) z -> fin_below (e + 1) z0 -> exceeds_by d z z0 ->
  exceeds_by (d / 2 + step_slack e) (zipw (fstep 2) z z0) z0 /\ exceeds_by (d / 2 + step_slack e) z (zipw (fstep 2) z z0).
Proof.
  intros He Hz Hf H. revert Hz Hf. induction H as [|x y z z0 Hx H IH]; intros Hz Hf; [split; constructor|]. inversion Hz as [|? ? [Fx Bx] Hz']; inversion Hf as [|? ? [Fy By] Hf']; subst.
  destruct (IH Hz' Hf') as (I1 & I2). destruct (step_err 2 e x y ltac:(lia) He Fx Fy Bx By) as (_ & E). fold (step_slack e) in E. apply Rabs_le_inv in E.
  cbn [zipw]. change (2 - 1)%Z with 1%Z in E. split; constructor; auto; cbn beta; lra.
Qed.

Section Doubles.
  Context (p : nt_problem F64) (v : nt_variant F64) (eps : F64) (k : nat) (ideal nadir : list F64) (e : Z).
  Context (WF : nt_wf k p v ideal nadir) (He : (-1000 <= e <= 1019)%Z).
  Context (HF : forall x, fin_below e (np_eval p x)) (Hs : fin_below e (nt_start v nadir)).
  Context (HP : forall w q x c, 0 <= c -> Forall ffin q -> (exists y, exceeds_by c (np_eval p y) q) -> np_min p w nadir (nt_utopian ideal eps) q (np_x0 p) = Ok x -> exceeds_by c (np_eval p x) q).
  Context (H0 : exists y, exceeds_by 0 (np_eval p y) (nt_start v nadir)).
  Notation dl := (step_slack e).

  Definition dmono (t : Z) (st : list (list F64)) (w : vw F64) : Prop :=
    exists rest c d, st = vz w :: vz0 w :: rest /\ Forall (grown t e) st /\ vf w = np_eval p (vx w) /\ 0 <= c /\ 0 <= d /\ c + d <= IZR (2 * t) * dl /\
      exceeds_by c (vf w) (vz w) /\ exceeds_by d (vz w) (vz0 w) /\ Sorted (exceeds_by (IZR (2 * t) * dl)) st /\ last rest (vz0 w) = nt_start v nadir.
  Definition inv_d (qs : list (nt_request F64)) (st : list (list F64)) (w : vw F64) : Prop :=
    let t := Z.of_nat (length (tl qs)) in
    (t <= 2 ^ 49)%Z -> dmono t st w /\ match qs with NReq _ _ _ _ :: _ => (vl w <= vn w <= 2 ^ 53)%Z | _ => True end.

  Lemma point_step l (z f z' : list F64) : length z = length f -> (1 <= l)%Z -> nt_point l z f = Ok z' -> z' = zipw (fstep l) z f.
  Proof.
    unfold nt_point. intros HL Hl. destruct (Z.eqb_spec l 0) as [?|_]; [lia|]. apply step_vec. exact HL.
  Qed.
  Lemma sorted_exc c c' st : c <= c' -> Sorted (exceeds_by c) st -> Sorted (exceeds_by c') st.
  Proof.
    intros H S. induction S as [|a l S IH Hd]; constructor; auto. inversion Hd; constructor. eapply exc_le; eauto.
  Qed.
  Lemma t_mono t : (IZR (2 * (t + 1)) * dl = IZR (2 * t) * dl + 2 * dl).
  Proof. rewrite !mult_IZR, plus_IZR. ring. Qed.

  (** a step from [z] (the head of [st]) towards [f] *)
  Lemma move t st z f x z' l rest c : (0 <= t < 2 ^ 49)%Z -> st = z :: rest -> Forall (grown t e) st -> Sorted (exceeds_by (IZR (2 * t) * dl)) st ->
    0 <= c <= IZR (2 * t) * dl -> f = np_eval p x -> exceeds_by c f z -> (1 <= l <= 2 ^ 53)%Z -> nt_point l z f = Ok z' ->
    Forall (grown (t + 1) e) (z' :: st) /\ Sorted (exceeds_by (IZR (2 * (t + 1)) * dl)) (z' :: st) /\
    exists c' d', 0 <= c' /\ 0 <= d' /\ c' + d' <= IZR (2 * (t + 1)) * dl /\ exceeds_by c' f z' /\ exceeds_by d' z' z.
  Proof.
    intros Ht -> HG HS Hc -> Hf Hl Hp. pose proof (exc_len _ _ _ Hf) as HLf. apply point_step in Hp; [|congruence|lia]. subst z'.
    inversion HG as [|? ? Gz Gr]; subst. pose proof (slack_pos e) as Hd.
    destruct (step_exc l e c z (np_eval p x) Hl He (grown_below t e z ltac:(lia) Gz) (within_le e (e + 1) _ ltac:(lia) (HF x)) Hf) as (S1 & S2).
    destruct (coef_facts l) as (C1 & C2 & C3); [lia|]. rewrite t_mono.
    split; [|split].
    - constructor; [apply grown_next; auto|]. eapply Forall_impl; [|exact HG]. intros a. apply grown_le. lia.
    - constructor; [eapply sorted_exc; [|exact HS]; lra|]. constructor. eapply exc_le; [|exact S1]. nra.
    - exists (IZR (l - 1) / IZR l * c + dl), (1 / IZR l * c + dl). split; [nra|]. split; [nra|]. split; [nra|]. split; assumption.
  Qed.

  Lemma trail_d s q qs st : nt_trail p v eps ideal nadir (counts_exact v) s (q :: qs) st ->
    seen p v k ideal nadir [nt_start v nadir] inv_d s q qs st.
  Proof.
    intros H. apply (run_seen p v eps k ideal nadir WF trail_next [nt_start v nadir] (counts_exact v)); [..|exact H].
    - intros q0 d [Hd _] Hq0. unfold any_answers in Hd. destruct v; [left; reflexivity|right; auto].
    - intros d m x z' q0 [_ HAn] HV HAs Hm HC HPt HL HS. destruct HS as (b & e' & -> & _). cbn [trail_next]. intros _. cbn [tl length].
      change (Z.of_nat 1) with (0 + 1)%Z. destruct HC as (me & i & wt & _ & _ & _ & HC). apply (HP _ _ _ 0) in HC; [|lra|apply (within_fin e), Hs|exact H0].
      assert (Hm2 : (m <= 2 ^ 53)%Z) by (destruct HAs as (o & Eo & Em); eauto).
      assert (B1 : Forall (grown 0 e) [nt_start v nadir]) by (constructor; [apply grown_0; [lia|exact Hs]|constructor]).
      assert (B2 : Sorted (exceeds_by (IZR (2 * 0) * dl)) [nt_start v nadir]) by (repeat constructor).
      assert (B3 : 0 <= 0 <= IZR (2 * 0) * dl) by (change (IZR (2 * 0)) with 0; lra).
      destruct (move 0 [nt_start v nadir] (nt_start v nadir) (np_eval p x) x z' m [] 0 ltac:(lia) eq_refl B1 B2 B3 eq_refl HC ltac:(lia) HPt) as (G1 & G2 & c & d' & G3 & G4 & G5 & G6 & G7).
      split; [|cbn [vl vn]; lia]. exists [], c, d'. cbn [vz vz0 vf vx last]. auto 12.
    - cbn zeta. intros z lo up e1 qs0 h w d r w' HI Ez Ef Hst L1 L2 L3 L1' L2' L3' [HA HAn] HV HS. unfold inv_d in *. cbn [tl length] in *.
      rewrite Nat2Z.inj_succ. unfold Z.succ. intros HT. destruct HI as ((rest & c & dd & -> & HG & _ & Hc & Hd & Hcd & Hf & Hz & SS & HL) & Hn); [lia|].
      set (t := Z.of_nat (length qs0)) in *. assert (Ht : (0 <= t < 2 ^ 49)%Z) by lia. pose proof (slack_pos e) as Hdl. pose proof (t_mono t) as Tm.
      assert (HN : forall n' l', counters v d (vn w) (vl w) = (n', l') -> (l' <= n' <= 2 ^ 53)%Z).
      { intros n' l'. unfold counters. destruct (nd_n d) as [o|] eqn:En; [|intros E; injection E as <- <-; lia].
        destruct (as_int o) as [m|] eqn:Em; [|intros E; injection E as <- <-; lia]. specialize (HAn o m eq_refl Em). unfold any_answers in HA. destruct v.
        - intros E. injection E as <- <-. lia.
        - exfalso. assert (A1 := HA ltac:(discriminate)). congruence. }
      assert (HG' : Forall (grown (t + 1) e) (vz w :: vz0 w :: rest)) by (eapply Forall_impl; [|exact HG]; intros a; apply grown_le; lia).
      assert (SS' : Sorted (exceeds_by (IZR (2 * (t + 1)) * dl)) (vz w :: vz0 w :: rest)) by (eapply sorted_exc; [|exact SS]; lra).
      assert (Hfin : Forall (Forall ffin) (vz w :: vz0 w :: rest)).
      { eapply Forall_impl; [|exact HG]. intros a Ha. apply (within_fin (e + 1)), (grown_below t); [lia|exact Ha]. }
      inversion Hfin as [|? ? Fz Fr]; inversion Fr as [|? ? Fz0 _]; subst.
      assert (Hat : forall q c1, exceeds_by c1 (vz w) q -> exists y, exceeds_by (c + c1) (np_eval p y) q).
      { intros q' c1 Hq. exists (vx w). rewrite <- Ef. eapply exc_trans; eauto. }
      inversion HS as [n' l' HC Hl|n' l' z' q' HC Hl (b & Eb & Tb) P Hpt Hsh|n' l' x z' q' HC Hl (b & Eb & Tb) P Hch Hpt Hsh|n' l' z' q' HC Hl (b & Eb & Tb) S' Hpt Hsh|n' l' HC Hl B S' P|n' l' x z' q' HC Hl (b & Eb & Tb) S' P Hch Hpt Hsh]; subst w'; cbn [vz vz0 vf vx vl vn] in *; try specialize (HN _ _ HC).
      + cbn [trail_next]. split; [|exact I]. exists rest, c, dd. cbn [vz vz0 vf vx]. repeat (split; [solve [auto|lra]|]). exact HL.
      + destruct Hsh as (b' & e' & -> & _). cbn [trail_next]. rewrite Eb, Tb.
        destruct (move t _ (vz w) (vf w) (vx w) z' (l' - 1) (vz0 w :: rest) c Ht eq_refl HG SS ltac:(lra) Ef Hf ltac:(lia) Hpt) as (G1 & G2 & c' & d' & G3 & G4 & G5 & G6 & G7).
        split; [|lia]. exists (vz0 w :: rest), c', d'. cbn [vz vz0 vf vx]. repeat (split; [solve [auto]|]).
        rewrite last_cons. exact HL.
      + destruct Hsh as (b' & e' & -> & _). cbn [trail_next]. rewrite Eb, Tb. destruct Hch as (me & i & wt & _ & _ & _ & HC').
        apply (HP _ _ _ c) in HC'; [|exact Hc|exact Fz|]; [|destruct (Hat (vz w) 0 (exc_refl _)) as (y & Hy); exists y; rewrite Rplus_0_r in Hy; exact Hy].
        destruct (move t _ (vz w) (np_eval p x) x z' (l' - 1) (vz0 w :: rest) c Ht eq_refl HG SS ltac:(lra) eq_refl HC' ltac:(lia) Hpt) as (G1 & G2 & c' & d' & G3 & G4 & G5 & G6 & G7).
        split; [|lia]. exists (vz0 w :: rest), c', d'. cbn [vz vz0 vf vx]. repeat (split; [solve [auto]|]).
        rewrite last_cons. exact HL.
      + destruct Hsh as (b' & e' & -> & _). cbn [trail_next]. rewrite Eb, Tb. cbn [tl].
        change (nofZ 1) with (@nofZ F64 (2 - 1)) in Hpt at 1. apply (step_vec 2) in Hpt; [|congruence]. subst z'.
        inversion HG as [|? ? Gz Gr]; inversion Gr as [|? ? Gz0 Gr']; subst.
        destruct (half_exc e dd (vz w) (vz0 w) He (grown_below t e _ ltac:(lia) Gz) (grown_below t e _ ltac:(lia) Gz0) Hz) as (S1 & S2).
        inversion HG' as [|? ? _ Gr2]; inversion SS' as [|? ? SS2 _]; subst.
        split; [|lia]. exists rest, (c + (dd / 2 + dl)), (dd / 2 + dl). cbn [vz vz0 vf vx]. split; [reflexivity|]. split; [constructor; [apply grown_next2; auto; lia|exact Gr2]|].
        split; [exact Ef|]. split; [lra|]. split; [lra|]. split; [lra|]. split; [eapply exc_trans; eauto|]. split; [exact S1|]. split; [|exact HL].
        constructor; [exact SS2|]. constructor. eapply exc_le; [|exact S1]. lra.
      + destruct Hsh as (b' & e' & -> & _). cbn [trail_next]. rewrite Eb, Tb. cbn [tl]. destruct Hch as (me & i & wt & _ & _ & _ & HC').
        apply (HP _ _ _ (c + dd)) in HC'; [|lra|exact Fz0|]; [|apply (Hat (vz0 w) dd Hz)].
        inversion HG as [|? ? Gz Gr]; inversion SS as [|? ? SS2 _]; subst.
        destruct (move t _ (vz0 w) (np_eval p x) x z' l' rest (c + dd) Ht eq_refl Gr SS2 ltac:(lra) eq_refl HC' ltac:(lia) Hpt) as (G1 & G2 & c' & d' & G3 & G4 & G5 & G6 & G7).
        split; [|lia]. exists rest, c', d'. cbn [vz vz0 vf vx]. repeat (split; [solve [auto]|]). exact HL.
    - intros qs0 h w d x f HM. unfold inv_d in *. cbn [tl length] in *. rewrite Nat2Z.inj_succ. unfold Z.succ. cbn [trail_next].
      intros HT. destruct HM as ((rest & c & dd & -> & HG & Ef & Hc & Hd & Hcd & Hf & Hz & SS & HL) & _); [lia|]. split; [|exact I].
      pose proof (slack_pos e) as Hdl. set (t := Z.of_nat (length qs0)) in *. pose proof (t_mono t) as Tm.
      exists rest, c, dd. split; [reflexivity|]. split; [eapply Forall_impl; [|exact HG]; intros a; apply grown_le; lia|]. repeat (split; [solve [auto|lra]|]).
      split; [eapply sorted_exc; [|exact SS]; lra|exact HL].
  Qed.
End Doubles.
