(** * Pareto Navigator: the linear program is the min-max problem (real numbers). *)
From Coq Require Import ZArith List Bool Lia Reals Lra.
From Verif Require Import Num NumXR Py Np Spec NpFacts XRFacts PAsf MRpm MParetoNav SParetoNav PParetoNav PParetoNav2.
Import ListNotations.
Open Scope R_scope.

Definition runit (k i : nat) : list R := map (fun j => if Nat.eqb j i then 1 else 0) (seq 0 k).
Definition rlpA (k : nat) (ideal nadir : list R) (eqs : list (list R)) : list (list R) :=
  zipw (fun i r => - r :: runit k i) (seq 0 k) (rsub nadir ideal) ++ map (cons 0) (map (fun r => removelast r) eqs).
Definition rlpb (eqs : list (list R)) : list R := map (fun r => - last r 0) eqs.
Definition rbnds (ideal nadir : list R) : list (option R * option R) :=
  (None, None) :: map (fun xy => (Some (fst xy), Some (snd xy))) (combine ideal nadir).

Lemma rdot_cons a b x y : rdot (a :: b) (x :: y) = a * x + rdot b y.
Proof. reflexivity. Qed.
Lemma rdot_unit_gen n : forall a i z, length z = n -> (forall j, nth_error z j = None -> True) ->
  rdot (map (fun j => if Nat.eqb j i then 1 else 0) (seq a n)) z = match nth_error z (i - a) with Some x => if Nat.leb a i then x else 0 | None => 0 end.
Proof.
  induction n as [|n IH]; intros a i z Hz _; destruct z as [|x z]; try discriminate.
  - cbn. destruct (i - a)%nat; reflexivity.
  - cbn [seq map]. rewrite rdot_cons, IH; auto. destruct (Nat.eqb_spec a i) as [->|Ha].
    + rewrite Nat.sub_diag, Nat.leb_refl. cbn [nth_error]. replace (Nat.leb (S i) i) with false by (symmetry; apply Nat.leb_gt; lia).
      destruct (nth_error z (i - S i)); lra.
    + destruct (Nat.leb_spec a i) as [Hai|Hai].
      * replace (i - a)%nat with (S (i - S a)) by lia. cbn [nth_error]. replace (Nat.leb (S a) i) with true by (symmetry; apply Nat.leb_le; lia).
        destruct (nth_error z (i - S a)); lra.
      * replace (i - a)%nat with 0%nat by lia. replace (i - S a)%nat with 0%nat by lia. cbn [nth_error].
        replace (Nat.leb (S a) i) with false by (symmetry; apply Nat.leb_gt; lia). destruct z; cbn; lra.
Qed.
Lemma rdot_unit k i z x : length z = k -> nth_error z i = Some x -> rdot (runit k i) z = x.
Proof. intros Hz Hx. unfold runit. rewrite rdot_unit_gen by auto. rewrite Nat.sub_0_r, Hx. reflexivity. Qed.

Lemma zipw_nth {A B C} (f : A -> B -> C) a b i : nth_error (zipw f a b) i = match nth_error a i, nth_error b i with Some x, Some y => Some (f x y) | _, _ => None end.
Proof.
  revert b i. induction a as [|x a IH]; intros [|y b] [|i]; cbn; auto.
  - destruct (nth_error a i); reflexivity.
Qed.
Lemma seq_nth_error k i : (i < k)%nat -> nth_error (seq 0 k) i = Some i.
Proof. intros H. rewrite (nth_error_nth' _ 0%nat) by (rewrite seq_length; exact H). rewrite seq_nth by exact H. reflexivity. Qed.
Lemma rsub_nth a b i x y : nth_error a i = Some x -> nth_error b i = Some y -> nth_error (rsub a b) i = Some (x - y).
Proof. intros Ha Hb. unfold rsub. rewrite zipw_nth, Ha, Hb. reflexivity. Qed.
Lemma nth_ex {A} (l : list A) i : (i < length l)%nat -> exists x, nth_error l i = Some x.
Proof. intros H. destruct (nth_error l i) eqn:E; [eauto|]. apply nth_error_None in E. lia. Qed.
Lemma nth_lt {A} (l : list A) i x : nth_error l i = Some x -> (i < length l)%nat.
Proof. intros H. apply nth_error_Some. congruence. Qed.

Lemma Forall2_app_iff {A B} (P : A -> B -> Prop) a1 a2 b1 b2 : length a1 = length b1 ->
  (Forall2 P (a1 ++ a2) (b1 ++ b2) <-> Forall2 P a1 b1 /\ Forall2 P a2 b2).
Proof.
  intros Hl. split.
  - revert b1 Hl. induction a1 as [|x a1 IH]; intros [|y b1] Hl H; try discriminate; [split; [constructor|exact H]|].
    cbn in Hl. inversion H; subst. destruct (IH b1) as [I1 I2]; auto.
  - intros [H1 H2]. apply Forall2_app; auto.
Qed.
Lemma Forall2_map_both {A B C} (P : B -> C -> Prop) (f : A -> B) (g : A -> C) l : Forall2 P (map f l) (map g l) <-> Forall (fun a => P (f a) (g a)) l.
Proof.
  induction l as [|a l IH]; cbn; split; intros H; try constructor; inversion H; subst; try (apply IH); auto.
Qed.
Lemma removelast_last_app {A} (l : list A) d : l <> [] -> l = removelast l ++ [last l d].
Proof. intros H. apply app_removelast_last. exact H. Qed.

(** The rows of the polyhedron. *)
Lemma hull_rows k eqs z t : Forall (fun r => length r = S k) eqs ->
  (Forall2 (fun row bi => rdot row (t :: z) <= bi) (map (cons 0) (map (fun r => removelast r) eqs)) (rlpb eqs) <-> inside eqs z).
Proof.
  intros He. unfold rlpb. rewrite map_map, Forall2_map_both. split.
  - intros H a a0 Hin. pose proof (proj1 (Forall_forall _ _) H _ Hin) as H'. cbn beta in H'. rewrite rdot_cons, removelast_last, last_last in H'. lra.
  - intros H. apply Forall_forall. intros r Hr. pose proof (proj1 (Forall_forall _ _) He _ Hr) as Hl. cbn in Hl.
    assert (Hne : r <> []) by (destruct r; [discriminate|congruence]).
    specialize (H (removelast r) (last r 0)). rewrite <- removelast_last_app in H by exact Hne. specialize (H Hr). rewrite rdot_cons. lra.
Qed.
(** The rows of the scaled deviations. *)
Lemma dev_rows k ideal nadir q z t : length ideal = k -> length nadir = k -> length q = k -> length z = k -> Forall2 Rlt ideal nadir ->
  (Forall2 (fun row bi => rdot row (t :: z) <= bi) (zipw (fun i r => - r :: runit k i) (seq 0 k) (rsub nadir ideal)) q <-> deviation_le ideal nadir q z t).
Proof.
  intros Hi Hn Hq Hz Hlt. assert (Hr : length (rsub nadir ideal) = k) by (rewrite rsub_len; lia).
  assert (HL : length (zipw (fun i r => - r :: runit k i) (seq 0 k) (rsub nadir ideal)) = k) by (rewrite zipw_length, seq_length; lia).
  assert (Hrow : forall i zi ni mi, nth_error z i = Some zi -> nth_error nadir i = Some ni -> nth_error ideal i = Some mi ->
    exists row, nth_error (zipw (fun i r => - r :: runit k i) (seq 0 k) (rsub nadir ideal)) i = Some row /\ rdot row (t :: z) = - (ni - mi) * t + zi /\ mi < ni).
  { intros i zi ni mi Ez En Ei. assert (Hk : (i < k)%nat) by (rewrite <- Hz; eapply nth_lt; eassumption).
    eexists. rewrite zipw_nth, (seq_nth_error k i Hk), (rsub_nth _ _ _ _ _ En Ei). split; [reflexivity|]. split.
    - rewrite rdot_cons, (rdot_unit k i z zi Hz Ez). reflexivity.
    - destruct (Forall2_nth_l _ _ _ _ _ Hlt Ei) as (y & Ey & Hy). congruence. }
  split.
  - intros H i zi qi ni mi Ez Eq En Ei. destruct (Hrow i zi ni mi Ez En Ei) as (row & Er & Ed & Hm).
    destruct (Forall2_nth_l _ _ _ _ _ H Er) as (qi' & Eq' & Hle). assert (qi' = qi) by congruence. subst qi'. rewrite Ed in Hle.
    apply (Rmult_le_reg_r (ni - mi)); [lra|]. unfold Rdiv. rewrite Rmult_assoc, Rinv_l by lra. lra.
  - intros H. apply Forall2_from_nth; [lia|]. intros i row qi Er Eq.
    assert (Hk : (i < k)%nat) by (rewrite <- Hq; eapply nth_lt; eassumption).
    destruct (nth_ex z i) as (zi & Ez); [lia|]. destruct (nth_ex nadir i) as (ni & En); [lia|]. destruct (nth_ex ideal i) as (mi & Ei); [lia|].
    destruct (Hrow i zi ni mi Ez En Ei) as (row' & Er' & Ed & Hm). assert (row' = row) by congruence. subst row'. rewrite Ed.
    specialize (H i zi qi ni mi Ez Eq En Ei). apply (Rmult_le_compat_r (ni - mi)) in H; [|lra].
    unfold Rdiv in H. rewrite Rmult_assoc, Rinv_l in H by lra. lra.
Qed.
Lemma bnds_rows ideal nadir z : length ideal = length nadir ->
  (Forall2 within (map (fun xy => (Some (fst xy), Some (snd xy))) (combine ideal nadir)) z <-> rvle ideal z /\ rvle z nadir).
Proof.
  revert nadir z. induction ideal as [|m ideal IH]; intros [|n nadir] z Hl; try discriminate; cbn [combine map].
  - split; [intros H; inversion H; subst; split; constructor|]. intros [H _]. inversion H. constructor.
  - cbn in Hl. split.
    + intros H. inversion H as [|? zi ? z' Hw Hz]; subst. apply IH in Hz; [|lia]. destruct Hz as [H1 H2]. destruct Hw as [W1 W2].
      cbn [fst snd] in *. split; constructor; auto.
    + intros [H1 H2]. inversion H1; subst. inversion H2; subst. constructor; [|apply IH; [lia|split; auto]].
      split; cbn; intros ? E; injection E as <-; auto.
Qed.

(** The constraint system. *)
Lemma lp_system k ideal nadir eqs q t z : length ideal = k -> length nadir = k -> length q = k -> Forall2 Rlt ideal nadir ->
  Forall (fun r => length r = S k) eqs ->
  (feasible (rlpA k ideal nadir eqs) (q ++ rlpb eqs) (rbnds ideal nadir) (t :: z) <->
   approximation eqs ideal nadir z /\ deviation_le ideal nadir q z t).
Proof.
  intros Hi Hn Hq Hlt He. unfold feasible, rlpA, rbnds, approximation.
  assert (HL : length (zipw (fun i r => - r :: runit k i) (seq 0 k) (rsub nadir ideal)) = length q) by (rewrite zipw_length, seq_length, rsub_len; lia).
  rewrite Forall2_app_iff by exact HL. rewrite (hull_rows k) by exact He.
  split.
  - intros (H1 & H2 & H3 & H4). inversion H2 as [|? ? ? ? _ Hb]; subst. apply bnds_rows in Hb; [|lia].
    assert (Hz : length z = length ideal) by (destruct Hb as [Hb _]; apply rvle_len in Hb; lia).
    apply dev_rows in H3; auto; lia.
  - intros ((H1 & H2 & H3) & H4). assert (Hz : length z = length ideal) by (apply rvle_len in H2; lia).
    assert (Hb : Forall2 within (map (fun xy => (Some (fst xy), Some (snd xy))) (combine ideal nadir)) z) by (apply bnds_rows; [lia|auto]).
    split; [|split; [|split]].
    + pose proof (Forall2_len _ _ _ Hb) as E. cbn [length]. lia.
    + constructor; [split; cbn; discriminate|exact Hb].
    + apply dev_rows; auto; lia.
    + exact H1.
Qed.
Lemma rdot_zeros n z : rdot (repeat 0 n) z = 0.
Proof. revert z. induction n as [|n IH]; intros [|x z]; cbn; auto. rewrite IH. lra. Qed.
Lemma lp_cost k t z : rdot (1 :: repeat 0 k) (t :: z) = t.
Proof. rewrite rdot_cons, rdot_zeros. lra. Qed.

(** [optimal] gives [closest]. *)
Lemma optimal_closest k ideal nadir eqs q x : length ideal = k -> length nadir = k -> length q = k -> Forall2 Rlt ideal nadir ->
  Forall (fun r => length r = S k) eqs ->
  optimal (1 :: repeat 0 k) (rlpA k ideal nadir eqs) (q ++ rlpb eqs) (rbnds ideal nadir) x -> closest eqs ideal nadir q (tl x).
Proof.
  intros Hi Hn Hq Hlt He [HF HO]. destruct x as [|t z]; [destruct HF as (H & _); cbn in H; lia|]. cbn [tl].
  pose proof HF as HF'. apply lp_system in HF'; auto. destruct HF' as [HA HD]. split; [exact HA|].
  intros z' t' HA' HD'. assert (HF2 : feasible (rlpA k ideal nadir eqs) (q ++ rlpb eqs) (rbnds ideal nadir) (t' :: z')) by (apply lp_system; auto).
  specialize (HO _ HF2). rewrite !lp_cost in HO. intros i zi qi ni mi E1 E2 E3 E4. specialize (HD i zi qi ni mi E1 E2 E3 E4). lra.
Qed.

(** ** From the arrays of the code to real matrices *)
Lemma weights_xr ideal nadir : length ideal = length nadir -> Forall2 Rlt ideal nadir ->
  pn_weights (xv ideal : list XR) (xv nadir) = Ok (xv (map (fun r => 1 / r) (rsub nadir ideal))).
Proof.
  intros Hl Hlt. unfold pn_weights. rewrite bsub_xr by (symmetry; exact Hl). cbn [rbind]. f_equal.
  assert (Hp : Forall (fun r => r <> 0) (rsub nadir ideal)).
  { clear Hl. induction Hlt; cbn; constructor; [lra|auto]. }
  revert Hp. generalize (rsub nadir ideal) as l. intros l Hp. induction Hp as [|r l Hr Hp IH]; [reflexivity|].
  cbn [xv map]. f_equal; [|exact IH]. change (@ndiv XR (nofZ 1) (Fin r)) with (xdiv (Fin 1) (Fin r)). unfold xdiv. destruct (Req_EM_T r 0); [contradiction|reflexivity].
Qed.
Lemma unit_row_xr k i : @unit_row XR k i = xv (runit k i).
Proof.
  unfold unit_row, runit, xv. rewrite map_map. apply map_ext. intros j. destruct (Nat.eqb j i); reflexivity.
Qed.
Lemma xv_removelast l : removelast (xv l) = xv (removelast l).
Proof. induction l as [|a l IH]; [reflexivity|]. destruct l as [|b l]; [reflexivity|]. cbn [xv map removelast] in *. rewrite IH. reflexivity. Qed.
Lemma xv_last l : last (xv l) (Fin 0) = Fin (last l 0).
Proof. induction l as [|a l IH]; [reflexivity|]. destruct l as [|b l]; [reflexivity|]. cbn [xv map last] in *. exact IH. Qed.
Lemma xv_app a b : xv (a ++ b) = xv a ++ xv b.
Proof. unfold xv. apply map_app. Qed.

Lemma split_b_xr eqs : snd (pn_split (xm eqs : list (list XR))) = xv (rlpb eqs).
Proof.
  unfold pn_split, rlpb, xm, xv. cbn [snd]. rewrite !map_map. apply map_ext. intros r. fold (xv r).
  change (@nofZ XR 0) with (Fin 0 : XR). rewrite xv_last. change (@nmul XR (nofZ (-1)) (Fin (last r 0))) with (Fin (IZR (-1) * last r 0)). f_equal. lra.
Qed.
Lemma lppp_xr k ideal nadir eqs A : length ideal = k -> length nadir = k -> Forall2 Rlt ideal nadir ->
  Forall (fun r => length r = S k) eqs ->
  pn_lppp (xv (map (fun r => 1 / r) (rsub nadir ideal)) : list XR) (fst (pn_split (xm eqs : list (list XR)))) = Ok A ->
  A = xm (rlpA k ideal nadir eqs).
Proof.
  intros Hi Hn Hlt He H. unfold pn_lppp in H.
  assert (Hl : length (xv (map (fun r => 1 / r) (rsub nadir ideal))) = k) by (rewrite xv_length, map_length, rsub_len; lia).
  rewrite Hl in H. match type of H with (if ?b then _ else _) = _ => destruct b end; [|discriminate]. injection H as <-.
  unfold rlpA, xm at 2. rewrite map_app. apply (f_equal2 (@app (list XR))).
  - assert (Hp : Forall (fun r => 0 < r) (rsub nadir ideal)). { clear - Hlt. induction Hlt; cbn; constructor; [lra|auto]. }
    revert Hp. generalize (rsub nadir ideal) as l. generalize (seq 0 k) as sq. intros sq l Hp. revert sq.
    induction Hp as [|r l Hr Hp IH]; intros [|i sq]; try reflexivity.
    cbn [map xv zipw]. apply (f_equal2 cons); [|apply IH]. rewrite unit_row_xr. apply (f_equal2 cons); [|reflexivity].
    change (@ndiv XR (nofZ (-1)) (Fin (1 / r))) with (xdiv (Fin (-1)) (Fin (1 / r))). unfold xdiv.
    assert (Hd : 1 / r <> 0). { unfold Rdiv. rewrite Rmult_1_l. apply Rinv_neq_0_compat. lra. }
    destruct (Req_EM_T (1 / r) 0); [contradiction|]. f_equal. field. lra.
  - unfold pn_split, xm. cbn [fst]. rewrite !map_map. apply map_ext. intros r. rewrite xv_removelast. reflexivity.
Qed.

(** A move from [c] towards [q] by [a]. *)
Lemma moved_xr a c q : length c = length q ->
  bcast2 (@nadd XR) (xv c) (vscale (Fin a : XR) (xv (rsub q c))) = Ok (xv (rcomb (1 - a) c a q)).
Proof.
  intros Hl. rewrite bcast2_eq by (unfold vscale; rewrite map_length, !xv_length, rsub_len; lia). f_equal.
  revert q Hl. induction c as [|x c IH]; intros [|y q] Hl; try discriminate; [reflexivity|].
  cbn [xv map rsub vscale zipw rcomb]. f_equal; [|apply IH; cbn in Hl; lia].
  change (@nadd XR (Fin x) (nmul (Fin a : XR) (Fin (y - x)))) with (Fin (x + a * (y - x))). f_equal. lra.
Qed.

Section Solve.
  Context (e : pn_env XR) (k : nat) (Hk : (2 <= k)%nat) (HL : lp_exact (pe_lp e)).
  Lemma solve_closest c q a ideal nadir eqs dir z A b :
    length ideal = k -> length nadir = k -> length q = k -> Forall2 Rlt ideal nadir -> Forall (fun r => length r = S k) eqs ->
    A = xm (rlpA k ideal nadir eqs) -> b = xv (rlpb eqs) ->
    pn_direction (CVec (xv c : list XR)) (xv q) = Ok dir -> pn_solve e (CVec (xv c)) (xv ideal) (xv nadir) dir (Fin a : XR) A b = Ok z ->
    length c = k /\ exists r, z = xv r /\ closest eqs ideal nadir (rcomb (1 - a) c a q) r.
  Proof.
    intros Hi Hn Hq Hlt He -> -> Hd H. unfold pn_direction in Hd. unfold pn_solve in H.
    assert (Hc : length c = k).
    { apply rbind_ok in H. destruct H as (m & H & H').
      destruct (Nat.eqb (length m) (length (xv c))) eqn:El; [|discriminate]. apply Nat.eqb_eq in El. clear H'.
      rewrite xv_length in El.
      destruct (Nat.eqb_spec (length q) (length c)) as [E|E]; [lia|]. exfalso.
      destruct q as [|q0 [|q1 q']]; cbn [length] in Hq; try lia.
      destruct c as [|c0 [|c1 c']]; cbn [length] in *.
      - cbn in Hd. discriminate.
      - cbn in Hd. injection Hd as <-. cbn in H. injection H as <-. cbn in El. lia.
      - unfold bcast2 in Hd. rewrite !xv_length in Hd. cbn [length] in Hd. apply Nat.eqb_neq in E. rewrite E in Hd. cbn in Hd. discriminate. }
    split; [exact Hc|].
    rewrite bsub_xr in Hd by lia. injection Hd as <-. rewrite moved_xr in H by lia. cbn [rbind] in H.
    rewrite !xv_length, rcomb_length in H by lia. rewrite Nat.eqb_refl in H. cbn [negb] in H.
    rewrite (proj2 (Nat.eqb_eq (length ideal) (length nadir))) in H by lia. cbn [negb] in H.
    apply rbind_ok in H. destruct H as (o & H & H'). destruct o as [x|]; [|discriminate]. injection H' as <-.
    assert (E1 : (nofZ 1 :: repeat (nofZ 0) (length c)) = (xv (1 :: repeat 0 k) : list XR)).
    { rewrite Hc. cbn [xv map]. f_equal. clear. induction k; cbn; [reflexivity|]. f_equal. exact IHn. }
    assert (E2 : ((None, None) :: map (fun xy : XR * XR => (Some (fst xy), Some (snd xy))) (combine (xv ideal) (xv nadir))) = map xbound (rbnds ideal nadir)).
    { unfold rbnds. cbn [map xbound]. f_equal. clear. revert nadir. induction ideal as [|m ideal IH]; intros [|n nadir]; try reflexivity. cbn. f_equal. apply IH. }
    rewrite E1, <- xv_app in H.
    match type of H with pe_lp e _ _ _ ?bd = _ => replace bd with (map xbound (rbnds ideal nadir)) in H by (symmetry; exact E2) end.
    destruct (HL _ _ _ _ _ H) as (r & -> & HO). exists (tl r). split; [destruct r; reflexivity|].
    apply (optimal_closest k); auto. rewrite rcomb_length; lia.
  Qed.
End Solve.
