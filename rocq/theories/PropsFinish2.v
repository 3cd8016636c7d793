(** * C106, NAUTILUS and NAUTILUS 2: a session can be ended from every request *)
From Coq Require Import ZArith List Bool Lia Floats.
From Verif Require Import Num NumF64 Py Np Spec NpFacts Hoare MNautilus SNautilus SFinish PNautilus PNautilus2 PNautilus3 PNautilus4 PNautilus8 PropsNautilus PropsNautilus2.
Import ListNotations.

Definition nt_answers {N : NumOps} (p : nt_problem N) v eps ideal nadir (s : nt_state N) (q : nt_request N) (d : nt_dict N) (s' : nt_state N) (q' : nt_request N) : Prop :=
  nt_validate v nadir q d = Ok tt /\ nt_iterate p v eps ideal nadir q (Some d) s = (s', Ok (Some q')).
Definition nt_stops {N : NumOps} (q : nt_request N) : Prop := exists x f, q = NStop x f.

Section Low.
  Context {N : NumOps} (p : nt_problem N) (eps : N) (ideal nadir : list N).
  Definition low (s : nt_state N) : Prop := (ns_left s <= ns_n s)%Z /\ (0 <= ns_n s)%Z.
  Lemma ctr_low st n l s : (l <= n)%Z -> (0 <= n)%Z -> ctr st n l s -> low s.
  Proof. unfold ctr, low. intros H H0 (_ & -> & ->). auto. Qed.
  Lemma initial_low v d : (forall o n, nd_n d = Some o -> as_int o = Some n -> (1 <= n)%Z) ->
    hs low (nt_handle_initial p v eps ideal nadir d) (fun _ => low) (fun _ => low).
  Proof.
    intros HD. unfold nt_handle_initial. apply hs_lift_bind; [auto|]. intros o Eo. apply hs_lift_bind; [auto|]. intros n En.
    assert (Hn : (1 <= n)%Z).
    { unfold key in Eo. destruct (nd_n d) as [o'|]; [|discriminate]. injection Eo as ->. destruct (as_int o) as [z|] eqn:Ez; [|discriminate]. injection En as ->. eapply HD; eauto. }
    apply (hs_pre _ (fun s => exists st, ns_step s = st /\ low s)); [eauto|]. intros s (st & Hst & Hl).
    assert (G : hs (fun s => ns_step s = st) (smod (fun s => let b {A} : list (option A) := repeat None (Z.to_nat (n + 2)) in MkNT (ns_step s) n n b b b b b b) ;;;
      (s0 <-- sget ;; nput ns_zs u_zs (ns_step s0 - 1) (Some (nt_start v nadir)) ;;;
      m <-- lift (key (nd_method d)) ;; i <-- lift (key (nd_info d)) ;; w <-- lift (nt_weights v m i nadir (nt_utopian ideal eps)) ;;
      nput ns_lb u_lb (ns_step s0 - 1 + nt_off v) (Some ideal) ;;; nput ns_ub u_ub (ns_step s0 - 1 + nt_off v) (Some nadir) ;;;
      nt_solve p v eps ideal nadir d ;;; nt_move ;;; nt_report p v ideal nadir)) (fun _ => ctr st n n) (fun _ => ctr st n n)).
    { apply (hs_mod_bind _ _ _ (ctr st n n)); [intros s' Hs; unfold ctr; cbn; auto|].
      apply hs_get_bind. intros s1 H1. apply (hs_pre _ (ctr st n n)); [intros ? ->; exact H1|].
      eapply hs_bind; [apply nput_ctr; exact (fun s y H => H)|]. intros []. apply hs_lift_bind; [auto|]. intros m _. apply hs_lift_bind; [auto|]. intros i _. apply hs_lift_bind; [auto|]. intros w _.
      eapply hs_bind; [apply nput_ctr; exact (fun s y H => H)|]. intros []. eapply hs_bind; [apply nput_ctr; exact (fun s y H => H)|]. intros [].
      eapply hs_bind; [apply solve_ctr|]. intros []. eapply hs_bind; [apply move_ctr|]. intros []. apply report_ctr. }
    specialize (G s Hst). match goal with |- match ?t with _ => _ end => destruct t as [s' [a|e]] end; (cbn beta iota in G; apply (ctr_low st n n); [lia|lia|exact G]).
  Qed.
  Lemma handle_low d : (forall o, nd_n d = Some o -> exists m, as_int o = Some m /\ (1 <= m)%Z) ->
    hs low (nt_handle p NV1 eps ideal nadir d) (fun _ => low) (fun _ => low).
  Proof.
    intros HD. unfold nt_handle. eapply (hs_bind _ _ _ (fun _ => low)).
    { unfold nt_change. destruct (nd_n d) as [o|]; [|apply hs_ret; auto]. destruct (HD o eq_refl) as (m & -> & Hm). apply hs_lift_bind; [auto|]. intros m' E. injection E as <-. apply hs_mod.
      intros s [H1 H2]. unfold low, nt_set_left, nt_extend in *. destruct (ns_n s <? m)%Z; cbn [ns_step ns_left ns_n]; lia. }
    intros []. apply hs_get_bind. intros s0 [H0 H1].
    apply (hs_pre _ (ctr (ns_step s0) (ns_n s0) (ns_left s0))); [intros ? ->; unfold ctr; auto|].
    generalize dependent (ns_n s0). intros n H0 H1. set (l := ns_left s0) in *. clearbody l. 
    assert (K : forall st l' s, (l' <= l)%Z -> ctr st n l' s -> low s) by (intros st l' s Hl Hs; eapply ctr_low; [| |exact Hs]; lia).
    destruct (l <=? 1)%Z.
    - apply (hs_mod_bind _ _ _ low); [intros s (_ & Hn & _); unfold low, u_left; cbn; lia|].
      apply hs_lift_bind; [auto|]. intros x _. apply hs_lift_bind; [auto|]. intros f _. apply hs_ret. auto.
    - apply hs_lift_bind; [intros e s _ Hs; eapply K; [|exact Hs]; lia|]. intros b _. destruct (negb (truthy b)).
      + eapply hs_bind; [eapply hs_post; [| |apply forward_ctr]; [intros a s Hs; exact Hs|intros e s Hs; eapply K; [|exact Hs]; lia]|].
        intros q. apply hs_ret. intros s Hs. eapply K; [|exact Hs]; lia.
      + apply hs_lift_bind; [intros e s _ Hs; eapply K; [|exact Hs]; lia|]. intros h _. destruct (truthy h).
        * eapply hs_bind; [eapply hs_post; [| |apply half_ctr]; [intros a s Hs; exact Hs|intros e s Hs; eapply K; [|exact Hs]; lia]|].
          intros q. apply hs_ret. intros s Hs. eapply K; [|exact Hs]; lia.
        * apply hs_lift_bind; [intros e s _ Hs; eapply K; [|exact Hs]; lia|]. intros u _. destruct (truthy u); [apply hs_ret; intros s Hs; eapply K; [|exact Hs]; lia|].
          eapply hs_bind; [eapply hs_post; [| |apply solve_ctr]; [intros a s Hs; exact Hs|intros e s Hs; eapply K; [|exact Hs]; lia]|]. intros [].
          eapply hs_bind; [eapply hs_post; [| |apply move_ctr]; [intros a s Hs; exact Hs|intros e s Hs; eapply K; [|exact Hs]; lia]|]. intros [].
          eapply hs_bind; [eapply hs_post; [| |apply report_ctr]; [intros a s Hs; exact Hs|intros e s Hs; eapply K; [|exact Hs]; lia]|].
          intros q. apply hs_ret. intros s Hs. eapply K; [|exact Hs]; lia.
  Qed.
  Lemma reach_low ok s qs : nt_reach p NV1 eps ideal nadir ok s qs -> low s.
  Proof.
    intros H. induction H as [|s qs q resp s' out HR IH Hq HV HA HI]; [split; cbn; lia|].
    destruct q as [|z lo up e|x f]; cbn [nt_iterate] in HI.
    - destruct resp as [d|]; cbn [nt_resp] in HI; [|unfold sbind, lift in HI; injection HI as <- _; exact IH].
      specialize (HV d eq_refl). destruct (validate_init _ _ _ HV) as (_ & _ & _ & o & m & Eo & Em & Hm).
      unfold sbind at 1 in HI. cbn [lift] in HI. destruct (nt_handle_initial p NV1 eps ideal nadir d s) as [s1 r1] eqn:E1. unfold sbind in HI. rewrite E1 in HI.
      assert (HD : forall o n, nd_n d = Some o -> as_int o = Some n -> (1 <= n)%Z) by (intros o' n E E'; assert (n = m) by congruence; lia).
      pose proof (hs_run _ _ _ _ _ _ _ (initial_low NV1 d HD) IH E1) as G. destruct r1; cbn in HI; injection HI as <- _; exact G.
    - destruct resp as [d|]; cbn [nt_resp] in HI; [|unfold sbind, lift in HI; injection HI as <- _; exact IH].
      specialize (HV d eq_refl). destruct (validate_req _ _ _ _ _ _ _ HV) as (_ & HD).
      unfold sbind at 1 in HI. cbn [lift] in HI.
      pose proof (hs_run _ _ _ _ _ _ _ (handle_low d HD) IH HI) as G. destruct out; exact G.
    - unfold sret in HI. injection HI as <- _. exact IH.
  Qed.
End Low.

(** The answer: keep the preferences, do not step back, one iteration. *)
Definition last_answer {N : NumOps} : nt_dict N := MkND (Some (VInt 1)) (Some (VBool false)) (Some (VBool false)) (Some (VBool true)) None None.
Lemma last_ends {N : NumOps} (p : nt_problem N) v eps ideal nadir s z lo up e x f : (v = NV1 -> low s) ->
  nth_error (ns_xs s) (ns_step s) = Some x -> nth_error (ns_fs s) (ns_step s) = Some f ->
  ends (nt_answers p v eps ideal nadir) (fun q => q = NStop x f) 1 s (NReq z lo up e).
Proof.
  intros HV Ex Ef.
  assert (V : nt_validate v nadir (NReq z lo up e) last_answer = Ok tt) by reflexivity.
  set (s1 := nt_set_left v 1 (nt_extend 1 s)).
  assert (A : ns_step s1 = ns_step s /\ nth_error (ns_xs s1) (ns_step s) = Some x /\ nth_error (ns_fs s1) (ns_step s) = Some f /\ (ns_left s1 <= 1)%Z).
  { unfold s1, nt_set_left, nt_extend, ext. destruct (ns_n s <? 1)%Z eqn:En; destruct v as [|start fuel]; cbn [ns_step ns_xs ns_fs ns_left ns_n];
      try (destruct (HV eq_refl)); repeat split; try assumption; try lia; rewrite nth_error_app1 by (apply nth_error_Some; congruence); assumption. }
  destruct A as (A1 & A2 & A3 & A4).
  eapply ends_answer with (d := last_answer) (q' := NStop x f); [|apply ends_now; reflexivity].
  split; [exact V|]. cbn [nt_iterate nt_resp]. unfold sbind at 1. cbn [lift]. unfold nt_handle. unfold sbind at 1. cbn [nt_change last_answer nd_n as_int].
  unfold sbind at 1. cbn [lift]. unfold smod at 1. fold s1. unfold sbind at 1, sget at 1. apply Z.leb_le in A4. rewrite A4.
  unfold sbind, smod, lift, sret. unfold at_. rewrite A1, A2, A3. reflexivity.
Qed.
Lemma room_slots {N : NumOps} (s : nt_state N) : room s -> exists x f, nth_error (ns_xs s) (ns_step s) = Some x /\ nth_error (ns_fs s) (ns_step s) = Some f.
Proof.
  intros (L & st & n & l & (E1 & E2 & E3 & _ & Lx & Lf & _) & H1 & HL & HR). subst st.
  destruct (nth_error (ns_xs s) (ns_step s)) as [x|] eqn:Ex; [|apply nth_error_None in Ex; lia]. destruct (nth_error (ns_fs s) (ns_step s)) as [f|] eqn:Ef; [|apply nth_error_None in Ef; lia]. eauto.
Qed.
Lemma ends_weaken {S Q D} (step : S -> Q -> D -> S -> Q -> Prop) (a b : Q -> Prop) n s q : (forall q, a q -> b q) -> ends step a n s q -> ends step b n s q.
Proof. intros H E. induction E; [apply ends_now; auto|eapply ends_answer; eauto]. Qed.
Lemma issued_room {N : NumOps} (s : nt_state N) qs z lo up e : nt_ok s qs -> In (NReq z lo up e) qs -> room s.
Proof. intros [[-> _]|[_ H]] Hin; [destruct Hin as [Hin|[]]; discriminate|exact H]. Qed.

(** Whatever has been answered before, failing calls included, one answer ends the
    session (the initial request is answered once; NAUTILUS 2: the number of remaining
    iterations is only raised on the first step, see C49). *)
Theorem C106_nautilus :
  forall (N : NumOps) (p : nt_problem N) eps k ideal nadir s qs z lo up e,
  nt_wf k p NV1 ideal nadir -> nt_no_index_errors p -> nt_reach p NV1 eps ideal nadir nt_no_restart s qs -> In (NReq z lo up e) qs ->
  ends (nt_answers p NV1 eps ideal nadir) nt_stops 1 s (NReq z lo up e).
Proof.
  intros N p eps k ideal nadir s qs z lo up e WF HN R Hin.
  destruct (room_slots s) as (x & f & Ex & Ef). { eapply issued_room; [|exact Hin]. apply (reach_ok p NV1 eps k ideal nadir WF HN). exact R. }
  eapply ends_weaken; [|eapply last_ends; eauto]; [intros q ->; unfold nt_stops; eauto|]. intros _. eapply reach_low. exact R.
Qed.
Print Assumptions C106_nautilus.
Theorem C106_nautilus2 :
  forall (N : NumOps) (p : nt_problem N) start fuel eps k ideal nadir s qs z lo up e,
  let v := NV2 start fuel in
  nt_wf k p v ideal nadir -> nt_no_index_errors p -> nt_reach p v eps ideal nadir nt_v2_careful s qs -> In (NReq z lo up e) qs ->
  ends (nt_answers p v eps ideal nadir) nt_stops 1 s (NReq z lo up e).
Proof.
  intros N p start fuel eps k ideal nadir s qs z lo up e v WF HN R Hin.
  destruct (room_slots s) as (x & f & Ex & Ef). { eapply issued_room; [|exact Hin]. apply (reach_ok p v eps k ideal nadir WF HN). exact R. }
  eapply ends_weaken; [|eapply last_ends; eauto]; [intros q ->; unfold nt_stops; eauto|discriminate].
Qed.
Print Assumptions C106_nautilus2.
(** In a session without failing calls it ends with a solution and its objective vector. *)
Theorem C106_nautilus_solution :
  forall (N : NumOps) (p : nt_problem N) v eps k ideal nadir s z lo up e qs,
  nt_wf k p v ideal nadir -> nt_path p v eps ideal nadir (any_answers v) s (NReq z lo up e :: qs) ->
  exists x, ends (nt_answers p v eps ideal nadir) (fun q => q = NStop (Some x) (Some (np_eval p x))) 1 s (NReq z lo up e).
Proof.
  intros N p v eps k ideal nadir s z lo up e qs WF HP.
  assert (LW : v = NV1 -> low s) by (intros ->; eapply reach_low; eapply path_reach; exact HP).
  assert (HA : forall (q : nt_request N) d, any_answers v q d -> q <> NInit -> v = NV1 \/ nd_n d = None).
  { intros q d H Hq. unfold any_answers in H. destruct v; auto. }
  pose proof (run_seen p v eps k ideal nadir WF (fun _ _ _ _ => tt) tt (any_answers v) (fun _ _ _ => True) HA ltac:(intros; exact Logic.I) ltac:(intros; exact Logic.I) ltac:(intros; exact Logic.I) s _ _ _ HP) as [(_ & E & _)|(L & w & V1 & V2 & V3 & _)]; [discriminate|].
  destruct V1 as ((((E1 & _) & _) & Ex & Ef) & _). rewrite <- E1 in Ex, Ef. exists (vx w). rewrite V3 in Ef. apply last_ends; assumption.
Qed.
Print Assumptions C106_nautilus_solution.
Example C106_nautilus_hypotheses_met :
  nt_wf 2 eA NV1 eI eN /\ nt_no_index_errors eA /\ (exists z lo up e, e_q3 = NReq z lo up e) /\
  nt_reach eA NV1 eEps eI eN nt_no_restart e_s3 [e_q3; e_q2; e_q1; NInit] /\ nt_path eA NV1 eEps eI eN (any_answers NV1) e_s3 [e_q3; e_q2; e_q1; NInit] /\
  nt_reach eA v2 eEps eI eN nt_v2_careful (fst g2) [g_q2; g_q1; NInit] /\ (exists z lo up e, g_q2 = NReq z lo up e).
Proof.
  destruct C43_hypotheses_met as (A & B & C & D). destruct C49_hypotheses_met as (_ & _ & E & _).
  assert (Z : forall q : nt_request F64, match q with NReq _ _ _ _ => true | _ => false end = true -> exists z lo up e, q = NReq z lo up e).
  { intros [|z lo up e|x f] H; try discriminate. eauto. }
  split; [exact A|]. split; [exact B|]. split; [apply Z; vm_compute; reflexivity|]. split; [exact D|].
  split; [|split; [exact E|apply Z; vm_compute; reflexivity]].
  refine (run_weaken _ _ _ _ _ _ _ _ _ _ _ _ _ C). intros q d _. unfold any_answers. auto.
Qed.
