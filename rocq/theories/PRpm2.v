(** * Reference Point Method: calls of iterate. *)
From Coq Require Import ZArith List Bool Lia.
From Verif Require Import Num Py Np Spec NpFacts MAsf MRpm SRpm PRpm.
Import ListNotations.

Section Step.
  Context {N : NumOps} (L : OrdLaws N) (p : rp_problem N) (rho eps : N) (k : nat) (ideal nadir : list N).
  Notation vec := (list N).
  Notation mat := (list (list N)).
  Context (WF : rp_wf k p ideal nadir).

  Lemma validate_ref_iff (a : rp_arr N) : rp_validate_ref a ideal nadir = Ok tt <->
    exists q, a = RArr q /\ length q = length ideal /\ exists i x y, nth_error nadir i = Some x /\ nth_error q i = Some y /\ nltb x y = false.
  Proof.
    destruct WF as (_ & Wi & Wn & _). destruct a as [q| |]; cbn; [|split; [discriminate|intros (q & E & _); discriminate]..].
    destruct (Nat.eqb_spec (length ideal) (length q)) as [E|E]; cbn [negb].
    - destruct (forallb (fun x => x) (zipw nltb nadir q)) eqn:F.
      + split; [discriminate|]. intros (q' & Eq & _ & i & x & y & H1 & H2 & H3). injection Eq as <-.
        apply (forallb_id_zipw nltb nadir q) in F; [|congruence]. destruct (Forall2_nth_l _ _ _ _ _ F H1) as (y' & H4 & H5). congruence.
      + split; [|auto]. intros _. exists q. split; auto. split; auto.
        assert (G : existsb (fun x => x) (zipw (fun x y => negb (nltb x y)) nadir q) = true).
        { revert F. clear. revert q. induction nadir as [|x nd IH]; intros [|y q]; cbn; try discriminate. destruct (nltb x y); cbn; auto. }
        apply existsb_id_zipw in G. destruct G as (i & x & y & H1 & H2 & H3). exists i, x, y. repeat split; auto. apply negb_true_iff. auto.
    - split; [discriminate|]. intros (q' & Eq & E' & _). injection Eq as <-. congruence.
  Qed.

  (** A satisfied answer: nothing changes, and no IndexError. *)
  Lemma satisfied_spec s f af d s' out : rp_inv p k s -> length f = k -> rp_satisfied d = true ->
    rp_validate ideal nadir (RReq f af) d = Ok tt -> rp_handle p rho eps ideal nadir d s = (s', out) ->
    s' = s /\ (out = Raise TypeErr \/ exists q', out = Ok q' /\ req_ok p k q') /\
    (forall z, rd_idx d = Some (VInt z) -> (0 <= z <= Z.of_nat k)%Z /\
       exists x g ax ag, nth_error (rs_xs s) (rs_h s) = Some x /\ nth_error (rs_fs s) (rs_h s) = Some g /\
         nth_error (rs_axs s) (rs_h s) = Some ax /\ nth_error (rs_afs s) (rs_h s) = Some ag /\
         (z = 0%Z -> out = Ok (RStop x g)) /\
         (forall lx lg xi gi, (0 < z)%Z -> ax = Some lx -> ag = Some lg -> nth_error lx (Z.to_nat z - 1) = Some xi -> nth_error lg (Z.to_nat z - 1) = Some gi ->
            out = Ok (RStop (Some xi) (Some gi)))).
  Proof.
    intros I Hf Hs HV H. destruct I as [I1 I2 I3 I4 I5 I6 I7 I8].
    assert (Lf : length (rs_fs s) = length (rs_xs s)) by (symmetry; eapply Forall2_len; eauto).
    assert (Laf : length (rs_afs s) = length (rs_axs s)) by (symmetry; eapply Forall2_len; eauto).
    destruct (nth_error (rs_xs s) (rs_h s)) as [x|] eqn:Ex; [|apply nth_error_None in Ex; lia].
    destruct (nth_error (rs_fs s) (rs_h s)) as [g|] eqn:Eg; [|apply nth_error_None in Eg; lia].
    destruct (nth_error (rs_axs s) (rs_h s)) as [ax|] eqn:Eax; [|apply nth_error_None in Eax; lia].
    destruct (nth_error (rs_afs s) (rs_h s)) as [ag|] eqn:Eag; [|apply nth_error_None in Eag; lia].
    destruct (Forall2_nth_l _ _ _ _ _ I6 Ex) as (g' & Eg' & R1). assert (g' = g) by congruence. subst g'.
    destruct (Forall2_nth_l _ _ _ _ _ I7 Eax) as (ag' & Eag' & R2). assert (ag' = ag) by congruence. subst ag'.
    unfold rp_handle in H. rewrite Hs in H. cbn [rp_validate] in HV. rewrite Hs in HV.
    destruct (rd_idx d) as [i|] eqn:Ei; [|discriminate]. cbn [key rbind] in HV.
    unfold sbind, lift, sget, sret in H. cbn [key] in H. unfold at_ in H. rewrite Ex, Eg, Eax, Eag in H.
    destruct (negb (truthy i) && negb (py_eq i 0)) eqn:E1; [discriminate|]. apply rbind_ok in HV as (lo & Hlo & HV).
    apply rbind_ok in HV as (hi & Hhi & HV). destruct hi; [|discriminate]. destruct lo; [|discriminate].
    assert (S0 : req_ok p k (RStop x g)) by (cbn; destruct x, g; cbn in *; tauto).
    assert (Gint : forall z, as_int i = Some z -> pred_val i = VInt (z - 1) /\ py_eq i 0 = (z =? 0)%Z /\ (0 <= z <= Z.of_nat k)%Z).
    { intros z Hz. destruct i as [|bb|zz| | |]; try discriminate; cbn [as_int] in Hz; injection Hz as Hz; subst z; cbn [pred_val py_eq py_ge py_le] in *;
        injection Hlo as Hlo; injection Hhi as Hhi; apply Z.leb_le in Hlo, Hhi; repeat split; auto; lia. }
    assert (Gz : forall z, as_int i = Some z -> s' = s /\
      ((z = 0%Z /\ out = Ok (RStop x g)) \/ (0 < z <= Z.of_nat k)%Z /\
        ((ax = None /\ ag = None /\ out = Raise TypeErr) \/ exists lx lg xi gi, ax = Some lx /\ ag = Some lg /\ rp_matches p xi gi /\
          nth_error lx (Z.to_nat z - 1) = Some xi /\ nth_error lg (Z.to_nat z - 1) = Some gi /\ out = Ok (RStop (Some xi) (Some gi))))).
    { intros z Hz. destruct (Gint z Hz) as (P1 & P2 & P3). rewrite P1, P2 in H. destruct (Z.eqb_spec z 0) as [Hz0|Hz0].
      - injection H as <- <-. split; auto.
      - destruct ax as [lx|], ag as [lg|]; cbn [opt_rel] in R2; try contradiction.
        + destruct R2 as [R2 Rk]. pose proof (Forall2_len _ _ _ R2) as Ll.
          cbn [sub_ as_int] in H. rewrite !py_nth_nonneg in H by lia. unfold at_ in H. replace (Z.to_nat (z - 1)) with (Z.to_nat z - 1) in H by lia.
          destruct (nth_error lx (Z.to_nat z - 1)) as [xi|] eqn:E3; [|apply nth_error_None in E3; lia].
          destruct (Forall2_nth_l _ _ _ _ _ R2 E3) as (gi & E4 & R3). rewrite E4 in H. injection H as <- <-.
          split; auto. right. split; [lia|]. right. exists lx, lg, xi, gi. repeat split; auto.
        + cbn [sub_ as_int] in H. injection H as <- <-. split; auto. right. split; [lia|]. left. auto. }
    destruct (as_int i) as [z|] eqn:Ez.
    - destruct (Gz z eq_refl) as (-> & G). destruct (Gint z eq_refl) as (_ & _ & Hz). split; auto. split.
      + destruct G as [[_ ->]|(_ & [(_ & _ & ->)|(lx & lg & xi & gi & _ & _ & M & _ & _ & ->)])]; eauto.
      + intros z' Hz'. injection Hz' as Hz'. subst i. cbn in Ez. injection Ez as Ez. subst z'. split; [lia|].
        exists x, g, ax, ag. split; [auto|]. split; [auto|]. split; [auto|]. split; [auto|]. split.
        * intros Z0. destruct G as [[_ ->]|(? & _)]; [auto|lia].
        * intros lx lg xi gi Hp -> -> E3 E4. destruct G as [[? _]|(_ & [(? & _ & _)|(lx' & lg' & xi' & gi' & A1 & A2 & _ & A3 & A4 & ->)])]; [lia|discriminate|]. congruence.
    - destruct i as [|b|z|y t|o|]; try discriminate. cbn [py_eq pred_val] in H.
      destruct (neqb y (nofZ 0)).
      + injection H as <- <-. split; auto. split; [eauto|]. intros z Hz. discriminate.
      + cbn [sub_ as_int] in H. assert (H' : (s, Raise TypeErr) = (s', out)) by (destruct ax; exact H). injection H' as <- <-.
        split; auto. split; auto. intros z Hz. discriminate.
  Qed.

  (** An answer that continues. *)
  Lemma continue_iter s q d s' out : req_ok p k q -> rp_inv p k s -> rp_validate ideal nadir q d = Ok tt ->
    rp_iterate p rho eps ideal nadir q (Some d) s = (s', out) ->
    match q with RInit => True | RReq _ _ => rp_satisfied d = false | RStop _ _ => False end ->
    exists v s1, rd_ref d = Some (RArr v) /\ length v = k /\ rp_inv p k s1 /\
      s1 = (match q with RInit => s | _ => rp_grow (w_h s (S (rs_h s))) end) /\
      rp_round p rho eps ideal nadir (RArr v) s1 = (s', out).
  Proof.
    destruct WF as (_ & Wi & _). intros Hq I HV H Hc. destruct q as [|f af|x f]; [| |contradiction].
    - cbn [rp_validate] in HV. destruct (rd_ref d) as [a|] eqn:Ea; [|discriminate]. apply validate_ref_iff in HV as (v & -> & Lv & _).
      exists v, s. split; auto. split; [congruence|]. split; auto. split; auto.
      unfold rp_iterate, sbind, lift, rp_resp in H. rewrite Ea in H. exact H.
    - cbn [rp_validate] in HV. rewrite Hc in HV. destruct (rd_ref d) as [a|] eqn:Ea; [|discriminate]. apply validate_ref_iff in HV as (v & -> & Lv & _).
      exists v, (rp_grow (w_h s (S (rs_h s)))). split; auto. split; [congruence|]. split; [apply inv_grow; auto|]. split; auto.
      unfold rp_iterate, sbind, lift, rp_resp, rp_handle in H. rewrite Hc, Ea in H. exact H.
  Qed.

  Lemma inv_step s qs q resp s' out : rp_inv p k s -> Forall (req_ok p k) qs -> In q qs ->
    (forall d, resp = Some d -> rp_validate ideal nadir q d = Ok tt) -> rp_iterate p rho eps ideal nadir q resp s = (s', out) ->
    rp_inv p k s' /\ (forall q', out = Ok q' -> req_ok p k q').
  Proof.
    intros I F Hin HV H. rewrite Forall_forall in F. pose proof (F _ Hin) as Hq.
    destruct q as [|f af|x f]; cbn [rp_iterate] in H.
    3:{ injection H as <- <-. split; auto. intros q' E. injection E as <-. exact Hq. }
    - destruct resp as [d|]; [|unfold sbind, lift in H; cbn in H; injection H as <- <-; split; [auto|discriminate]].
      destruct (continue_iter s RInit d s' out Hq I (HV _ eq_refl) H Logic.I) as (v & s1 & _ & Lv & I1 & _ & E).
      destruct (round_spec L p rho eps k ideal nadir WF _ _ _ _ I1 Lv E) as (I' & _ & w & _ & [(e & x0 & -> & _)|(x0 & x & g & pq & rs & X0 & X1 & X2 & X3 & -> & _)]); split; auto; [discriminate|].
      intros q' E'. injection E' as <-. destruct (solve_ok L p rho k ideal nadir WF _ _ _ _ _ X0 X1) as (_ & _ & Lg). cbn in *. split; auto.
      rewrite map_length. apply Forall2_len in X3. destruct (prp_ok k v g) as (pq' & Y1 & _ & Y3); auto. congruence.
    - destruct resp as [d|]; [|unfold sbind, lift in H; cbn in H; injection H as <- <-; split; [auto|discriminate]].
      destruct (rp_satisfied d) eqn:Es.
      + destruct Hq as [Lf _]. destruct (satisfied_spec s f af d s' out I Lf Es (HV _ eq_refl)) as (-> & [->|(q' & -> & Hq')] & _).
        * exact H.
        * split; [auto|discriminate].
        * split; auto. intros q2 E. congruence.
      + destruct (continue_iter s (RReq f af) d s' out Hq I (HV _ eq_refl) H Es) as (v & s1 & _ & Lv & I1 & _ & E).
        destruct (round_spec L p rho eps k ideal nadir WF _ _ _ _ I1 Lv E) as (I' & _ & w & _ & [(e & x0 & -> & _)|(x0 & x & g & pq & rs & X0 & X1 & X2 & X3 & -> & _)]); split; auto; [discriminate|].
        intros q' E'. injection E' as <-. destruct (solve_ok L p rho k ideal nadir WF _ _ _ _ _ X0 X1) as (_ & _ & Lg). cbn in *. split; auto.
        rewrite map_length. apply Forall2_len in X3. destruct (prp_ok k v g) as (pq' & Y1 & _ & Y3); auto. congruence.
  Qed.
  Lemma inv_reach s qs : rp_reach p rho eps ideal nadir s qs -> rp_inv p k s /\ Forall (req_ok p k) qs.
  Proof.
    induction 1 as [|s qs q resp s' out H [I F] Hin HV E]; [split; [apply inv_init|repeat constructor]|].
    destruct (inv_step _ _ _ _ _ _ I F Hin HV E) as [I' G]. split; auto. destruct out; auto.
  Qed.
End Step.
