(** * Reference Point Method: what a continuing answer gives depends on the reference
    point alone. *)
From Coq Require Import ZArith List Bool Lia.
From Verif Require Import Num Py Np Spec NpFacts MAsf MRpm SRpm PRpm PRpm2.
Import ListNotations.

Section Memory.
  Context {N : NumOps} (L : OrdLaws N) (p : rp_problem N) (rho eps : N) (k : nat) (ideal nadir : list N).
  Notation vec := (list N).
  Context (WF : rp_wf k p ideal nadir).

  (** The round without the object. *)
  Definition rout (q : vec) : res ((vec * vec) * list (vec * vec)) :=
    let ut := rp_utopian ideal eps in
    let w := zipw ndiv q (zipw nsub ut nadir) in
    rbind (rp_x0 p) (fun x0 => rbind (rp_solve p rho w nadir ut q x0) (fun r =>
      rbind (rp_prp q (snd r)) (fun pq =>
        rbind (rseq (map (fun pqi => rp_solve p rho w nadir ut pqi x0) pq)) (fun rs => Ok (r, rs))))).
  (** What the object holds of the current iteration. *)
  Definition cur (s : rp_state N) :=
    (nth_error (rs_xs s) (rs_h s), nth_error (rs_fs s) (rs_h s), nth_error (rs_axs s) (rs_h s), nth_error (rs_afs s) (rs_h s)).

  Lemma round_out s q : rp_inv p k s -> length q = k ->
    match rout q with
    | Ok (r, rs) => exists s', rp_round p rho eps ideal nadir (RArr q) s = (s', Ok (RReq (snd r) (map snd rs))) /\
        cur s' = (Some (Some (fst r)), Some (Some (snd r)), Some (Some (map fst rs)), Some (Some (map snd rs)))
    | Raise e => exists s', rp_round p rho eps ideal nadir (RArr q) s = (s', Raise e)
    end.
  Proof.
    intros I Hq. destruct I as [I1 I2 I3 I4 I5 I6 I7 I8].
    destruct s as [h qs xs fs pqs axs afs q0 w0]. cbn [rs_h rs_qs rs_xs rs_fs rs_pqs rs_axs rs_afs rs_q rs_w] in *. pose proof WF as (_ & Wi & Wn & _).
    assert (Lf : length fs = length xs) by (symmetry; eapply Forall2_len; eauto).
    assert (Laf : length afs = length axs) by (symmetry; eapply Forall2_len; eauto).
    unfold rp_round. rewrite bind_lift_ok. cbv beta.
    destruct (set_ok qs h (Some q)) as (qs' & Eq & Sq); [lia|]. rewrite (put_qs _ _ _ _ _ _ _ _ _ _ _ _ Eq). cbv beta. rewrite put_q. cbv beta.
    assert (Lut : length (rp_utopian ideal eps) = length nadir) by (unfold rp_utopian; rewrite map_length; congruence).
    destruct (bc_len nsub (rp_utopian ideal eps) nadir Lut) as [Eden Lden]. rewrite Eden, bind_lift_ok. cbv beta.
    destruct (bc_len ndiv q (zipw nsub (rp_utopian ideal eps) nadir)) as [Ew Lw]; [rewrite Lden; congruence|]. rewrite Ew, bind_lift_ok. cbv beta. rewrite put_w. cbv beta.
    unfold rout. cbv zeta. set (ut := rp_utopian ideal eps) in *. set (w := zipw ndiv q (zipw nsub ut nadir)) in *.
    destruct (x0_ok p k ideal nadir WF) as (x0 & Ex0). rewrite Ex0, bind_lift_ok. cbv beta. cbn [rbind].
    destruct (rp_solve p rho w nadir ut q x0) as [[x f]|e] eqn:Es; cbn [rbind].
    2:{ rewrite bind_lift_err. eexists. reflexivity. }
    destruct (solve_ok L p rho k ideal nadir WF _ _ _ _ _ Ex0 Es) as (S1 & S2 & S3). rewrite bind_lift_ok. cbn [fst snd] in *. cbv beta.
    destruct (set_ok xs h (Some x)) as (xs' & Exs & Sxs); [lia|]. rewrite (put_xs _ _ _ _ _ _ _ _ _ _ _ _ Exs). cbv beta.
    destruct (set_ok fs h (Some f)) as (fs' & Efs & Sfs); [lia|]. rewrite (put_fs _ _ _ _ _ _ _ _ _ _ _ _ Efs). cbv beta.
    destruct (prp_ok k q f Hq S3) as (pq & Epq & Hpq & Lpq). rewrite Epq, bind_lift_ok. cbv beta. cbn [rbind].
    destruct (set_ok pqs h (Some pq)) as (pqs' & Epqs & Spqs); [lia|]. rewrite (put_pqs _ _ _ _ _ _ _ _ _ _ _ _ Epqs). cbv beta.
    destruct (rseq (map (fun pqi => rp_solve p rho w nadir ut pqi x0) pq)) as [rs|e] eqn:Ers; cbn [rbind].
    2:{ rewrite bind_lift_err. eexists. reflexivity. }
    rewrite bind_lift_ok. cbv beta. cbn [fst snd].
    destruct (set_ok axs h (Some (map fst rs))) as (axs' & Eaxs & Saxs); [lia|]. rewrite (put_axs _ _ _ _ _ _ _ _ _ _ _ _ Eaxs). cbv beta.
    destruct (set_ok afs h (Some (map snd rs))) as (afs' & Eafs & Safs); [lia|]. rewrite (put_afs _ _ _ _ _ _ _ _ _ _ _ _ Eafs). cbv beta.
    eexists. split; [reflexivity|]. unfold cur. cbn [rs_h rs_qs rs_xs rs_fs rs_pqs rs_axs rs_afs rs_q rs_w].
    rewrite (set_nth_get_same _ _ _ _ Sxs), (set_nth_get_same _ _ _ _ Sfs), (set_nth_get_same _ _ _ _ Saxs), (set_nth_get_same _ _ _ _ Safs). reflexivity.
  Qed.

  (** Two histories, the same reference point. *)
  Lemma same_round s1 s2 r1 r2 d1 d2 q : rp_inv p k s1 -> rp_inv p k s2 -> req_ok p k r1 -> req_ok p k r2 ->
    rp_validate ideal nadir r1 d1 = Ok tt -> rp_validate ideal nadir r2 d2 = Ok tt -> rp_continues r1 d1 q -> rp_continues r2 d2 q ->
    exists s1' s2' out, rp_iterate p rho eps ideal nadir r1 (Some d1) s1 = (s1', out) /\ rp_iterate p rho eps ideal nadir r2 (Some d2) s2 = (s2', out) /\
      rp_inv p k s1' /\ rp_inv p k s2' /\
      (forall r', out = Ok r' -> cur s1' = cur s2' /\ req_ok p k r' /\ exists f fs, r' = RReq f fs).
  Proof.
    intros I1 I2 Q1 Q2 V1 V2 [D1 C1] [D2 C2].
    destruct (rp_iterate p rho eps ideal nadir r1 (Some d1) s1) as [s1' o1] eqn:E1.
    destruct (rp_iterate p rho eps ideal nadir r2 (Some d2) s2) as [s2' o2] eqn:E2.
    destruct (inv_step L p rho eps k ideal nadir WF s1 [r1] r1 (Some d1) s1' o1 I1 (Forall_cons _ Q1 (Forall_nil _)) (or_introl eq_refl)) as [J1 G1]; auto; [intros; congruence|].
    destruct (inv_step L p rho eps k ideal nadir WF s2 [r2] r2 (Some d2) s2' o2 I2 (Forall_cons _ Q2 (Forall_nil _)) (or_introl eq_refl)) as [J2 G2]; auto; [intros; congruence|].
    destruct (continue_iter p rho eps k ideal nadir WF s1 r1 d1 s1' o1 Q1 I1 V1 E1) as (v1 & t1 & Ev1 & Lv1 & K1 & _ & R1); [destruct r1; auto|].
    destruct (continue_iter p rho eps k ideal nadir WF s2 r2 d2 s2' o2 Q2 I2 V2 E2) as (v2 & t2 & Ev2 & Lv2 & K2 & _ & R2); [destruct r2; auto|].
    assert (v1 = q) by congruence. assert (v2 = q) by congruence. subst v1 v2.
    pose proof (round_out t1 q K1 Lv1) as O1. pose proof (round_out t2 q K2 Lv1) as O2.
    destruct (rout q) as [[r rs]|e].
    - destruct O1 as (u1 & F1 & X1), O2 as (u2 & F2 & X2). rewrite F1 in R1. rewrite F2 in R2.
      assert (u1 = s1') by congruence. assert (u2 = s2') by congruence. subst u1 u2.
      exists s1', s2', o1. split; auto. split; [congruence|]. split; auto. split; auto.
      intros r' E. split; [congruence|]. split; [auto|]. exists (snd r), (map snd rs). congruence.
    - destruct O1 as (u1 & F1), O2 as (u2 & F2). rewrite F1 in R1. rewrite F2 in R2.
      exists s1', s2', o1. split; auto. split; [congruence|]. split; auto. split; auto.
      intros r' E. congruence.
  Qed.
  Lemma same_satisfied s1 s2 f fs d : rp_satisfied d = true -> cur s1 = cur s2 ->
    exists out, rp_iterate p rho eps ideal nadir (RReq f fs) (Some d) s1 = (s1, out) /\ rp_iterate p rho eps ideal nadir (RReq f fs) (Some d) s2 = (s2, out).
  Proof.
    intros S C. unfold cur in C. assert (C1 := f_equal (fun t => fst (fst (fst t))) C). assert (C2 := f_equal (fun t => snd (fst (fst t))) C).
    assert (C3 := f_equal (fun t => snd (fst t)) C). assert (C4 := f_equal snd C). cbn [fst snd] in *. clear C.
    unfold rp_iterate, rp_resp, rp_handle. unfold sbind, lift, sget, sret. rewrite S.
    destruct (rd_idx d) as [i|]; cbn [key]; [|eexists; split; reflexivity]. unfold at_. rewrite C1, C2, C3, C4.
    destruct (py_eq i 0).
    - destruct (nth_error (rs_xs s2) _); [|eexists; split; reflexivity]. destruct (nth_error (rs_fs s2) _); eexists; split; reflexivity.
    - destruct (nth_error (rs_axs s2) _) as [ax|]; [|eexists; split; reflexivity]. destruct (sub_ ax _); [|eexists; split; reflexivity].
      destruct (nth_error (rs_afs s2) _) as [af|]; [|eexists; split; reflexivity]. destruct (sub_ af _); eexists; split; reflexivity.
  Qed.
End Memory.
