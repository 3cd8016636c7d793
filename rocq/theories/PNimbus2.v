(** * NIMBUS: the state machine, the archive, the choice of a solution. *)
From Coq Require Import ZArith List Bool Lia.
From Verif Require Import Num Py Np Spec NpFacts MNimbus SNimbus PNimbus.
Import ListNotations.

Section Machine.
  Context {N : NumOps}.
  Notation vec := (list N).
  Notation mat := (list (list N)).
  Variables (av : @asf_val N) (p : nb_problem N) (ideal nadir : vec).
  Lemma F2len {A B} (R : A -> B -> Prop) l m : Forall2 R l m -> length l = length m.
  Proof. induction 1; cbn; auto. Qed.

  (** ** Wrong request, end state: any state, any request *)
  Lemma iter_wrong s q resp : bs_phase s <> PEnd -> ~ awaits (bs_phase s) q ->
    nb_iterate av p ideal nadir q resp s = (s, Raise MethodExn).
  Proof.
    intros H G. unfold nb_iterate, sbind, sget, sraise.
    destruct (bs_phase s), q; cbn in G; try tauto; congruence.
  Qed.
  Lemma iter_end s q resp : bs_phase s = PEnd -> nb_iterate av p ideal nadir q resp s = (s, Ok q).
  Proof. intros H. unfold nb_iterate, sbind, sget. rewrite H. reflexivity. Qed.

  (** ** The pairs shown are solutions with their objectives *)
  Definition good (q : nb_request N) : Prop :=
    match q with
    | QClass f => exists x, matches p x f
    | QSave sols objs | QInter sols objs | QPref sols objs => Forall2 (matches p) sols objs
    | QStop x f => matches p x f
    end.
  Definition inv (s : nb_state N) (qs : list (nb_request N)) : Prop :=
    matches p (bs_sol s) (bs_obj s) /\ Forall2 (matches p) (bs_asols s) (bs_aobjs s) /\ Forall good qs.

  Lemma nb_solve_matches x0 a ref c1 c2 r : nb_solve av p x0 a ref c1 c2 = Ok r -> matches p (fst r) (snd r).
  Proof.
    unfold nb_solve. destruct p; intros H.
    - apply rbind_ok in H as (y & _ & H). injection H as <-. reflexivity.
    - apply rbind_ok in H as (i & _ & H). apply rbind_ok in H as (x & Hx & H). apply rbind_ok in H as (f & Hf & H).
      injection H as <-. exists i. rewrite at_ok in Hx, Hf. auto.
  Qed.

  Lemma new_solutions_shape s n lv a b c d e q : nb_new_solutions av p ideal nadir s n lv a b c d e = Ok q ->
    exists rs, q = QSave (map fst rs) (map snd rs) /\ Forall (fun r => matches p (fst r) (snd r)) rs.
  Proof.
    unfold nb_new_solutions. intros H. apply rbind_ok in H as (r1 & H1 & H). apply rbind_ok in H as (rs & H2 & H).
    injection H as <-. exists (r1 :: rs). split; auto. constructor; [eapply nb_solve_matches; eauto|].
    destruct (1 <? n)%Z; [|injection H2 as <-; constructor].
    apply rbind_ok in H2 as (z & Hz & H2). apply rbind_ok in H2 as (r2 & Hr2 & H2). apply rbind_ok in H2 as (rs3 & Hr3 & H2).
    injection H2 as <-. constructor; [eapply nb_solve_matches; eauto|].
    destruct (2 <? n)%Z; [|injection Hr3 as <-; constructor].
    apply rbind_ok in Hr3 as (r3 & Hr3 & H3). apply rbind_ok in H3 as (rs4 & Hr4 & H3). injection H3 as <-.
    constructor; [eapply nb_solve_matches; eauto|].
    destruct (3 <? n)%Z; [|injection Hr4 as <-; constructor].
    apply rbind_ok in Hr4 as (r4 & Hr4 & H4). injection H4 as <-. constructor; [eapply nb_solve_matches; eauto|constructor].
  Qed.
  Lemma handle_cls_shape s d q : nb_handle_cls av p ideal nadir s d = Ok q ->
    exists sols objs, q = QSave sols objs /\ Forall2 (matches p) sols objs.
  Proof.
    unfold nb_handle_cls. intros H. apply rbind_ok in H as (cl & _ & H). apply rbind_ok in H as (nv & _ & H).
    apply rbind_ok in H as (n & _ & H). apply rbind_ok in H as (lv & _ & H).
    apply new_solutions_shape in H as (rs & -> & H). eexists _, _. split; eauto. apply Forall2_map_pair. auto.
  Qed.

  (** One projected intermediate point. *)
  Lemma project_matches cs pt r :
    match p with
    | PMO _ evaluate co minimize =>
        do r <- minimize (APoint nadir ideal) (evaluate pt) (option_map (fun c => fun x => Ok (c x)) co) cs;
        Ok (fst r, evaluate (fst r))
    | PDisc _ objs decs closest =>
        do ref <- at_ objs (closest pt);
        do i <- disc_minimize av (APoint nadir ideal) ref objs None;
        do x <- at_ decs i; do f <- at_ objs i; Ok (x, f)
    end = Ok r -> matches p (fst r) (snd r).
  Proof.
    destruct p; intros H.
    - apply rbind_ok in H as (y & _ & H). injection H as <-. reflexivity.
    - apply rbind_ok in H as (rf & _ & H). apply rbind_ok in H as (i & _ & H). apply rbind_ok in H as (x & Hx & H). apply rbind_ok in H as (f & Hf & H).
      injection H as <-. exists i. rewrite at_ok in Hx, Hf. auto.
  Qed.
  Lemma intermediate_shape cs sols n q : nb_intermediate av p ideal nadir cs sols n = Ok q ->
    exists sols objs, q = QSave sols objs /\ Forall2 (matches p) sols objs.
  Proof.
    unfold nb_intermediate. intros H. apply rbind_ok in H as (s0 & _ & H). apply rbind_ok in H as (s1 & _ & H).
    apply rbind_ok in H as (pts & _ & H). apply rbind_ok in H as (rs & Hrs & H). injection H as <-.
    eexists _, _. split; eauto. apply Forall2_map_pair. apply rseq_map_ok in Hrs.
    induction Hrs; constructor; auto. eapply project_matches; eauto.
  Qed.
  Lemma handle_inter_shape s sols objs d q : nb_handle_inter av p ideal nadir s sols objs d = Ok q ->
    Forall2 (matches p) sols objs ->
    (exists sols objs, q = QSave sols objs /\ Forall2 (matches p) sols objs) \/ q = QPref sols objs.
  Proof.
    unfold nb_handle_inter. intros H G. apply rbind_ok in H as (ix & _ & H). destruct (Nat.ltb 0 (length ix)).
    - left. apply rbind_ok in H as (sel & _ & H). apply rbind_ok in H as (nv & _ & H). apply rbind_ok in H as (n & _ & H).
      eapply intermediate_shape; eauto.
    - right. injection H as <-. reflexivity.
  Qed.

  (** ** Validators of indices *)
  Lemma validate_save_ok (objs : mat) (d : nb_dict N) : nb_validate_save objs d = Ok tt <->
    exists ix, bd_indices d = Some ix /\ length ix <= length objs /\ Forall (fun z => (0 <= z < Z.of_nat (length objs))%Z) ix.
  Proof.
    unfold nb_validate_save. destruct (bd_indices d) as [ix|]; [|split; [discriminate|intros (? & ? & _); discriminate]].
    split.
    - destruct (Nat.eqb_spec (length ix) 0) as [E|E].
      + intros _. destruct ix; [|discriminate]. exists []. cbn. repeat split; auto; lia.
      + intros H. exists ix. split; auto. destruct (Nat.ltb_spec (length objs) (length ix)) as [L|L]; cbn [orb] in H; [discriminate|].
        destruct (zmin ix <? 0)%Z eqn:Ez; [discriminate|]. rewrite orb_false_r in H.
        destruct (Z.of_nat (length objs) <=? zmax ix)%Z eqn:Em; [discriminate|]. split; auto.
        apply zrange; [intros ->; apply E; reflexivity|]. rewrite Em, Ez. reflexivity.
    - intros (ix' & H & L & F). injection H as <-. destruct (Nat.eqb_spec (length ix) 0) as [E|E]; auto.
      assert (Hne : ix <> []) by (intros ->; apply E; reflexivity).
      pose proof (proj2 (zrange ix (Z.of_nat (length objs)) Hne) F) as G. apply orb_false_iff in G as [G1 G2].
      rewrite G1, G2. rewrite (proj2 (Nat.ltb_ge _ _) L). reflexivity.
  Qed.
  Lemma validate_pref_ok (objs : mat) (d : nb_dict N) : nb_validate_pref objs d = Ok tt <->
    exists z b, bd_index d = Some (VInt z) /\ bd_continue d = Some (VBool b) /\ (0 <= z < Z.of_nat (length objs))%Z.
  Proof.
    unfold nb_validate_pref. destruct (bd_index d) as [i|]; [|split; [discriminate|intros (? & ? & ? & _); discriminate]].
    destruct (bd_continue d) as [c|]; [|split; [discriminate|intros (? & ? & _ & ? & _); discriminate]].
    destruct i; try (split; [discriminate|intros (? & ? & H & _); discriminate H]).
    destruct c; try (split; [discriminate|intros (? & ? & _ & H & _); discriminate H]).
    destruct (0 <=? z)%Z eqn:E1; cbn [andb]; [destruct (z <? Z.of_nat (length objs))%Z eqn:E2|]; (split; [intros H|intros (z' & b' & H1 & H2 & H3); injection H1 as <-; try reflexivity; lia]); try discriminate.
    exists z, b. repeat split; lia.
  Qed.

  (** ** Each phase *)
  Lemma iter_cls s f resp s' out : bs_phase s = PClassify -> nb_iterate av p ideal nadir (QClass f) resp s = (s', out) ->
    (exists e, s' = s /\ out = Raise e) \/
    (exists d q, resp = Some d /\ nb_handle_cls av p ideal nadir s d = Ok q /\ s' = w_phase PArchive s /\ out = Ok q).
  Proof.
    intros Hp. unfold nb_iterate, sbind, sget, lift, smod, sret. rewrite Hp. destruct resp as [d|]; cbn [resp_].
    - destruct (nb_handle_cls av p ideal nadir s d) as [q|e] eqn:E; intros H; injection H as <- <-; [right; eauto 10|left; eauto].
    - intros H. injection H as <- <-. eauto.
  Qed.
  Lemma iter_save s sols objs resp s' out : bs_phase s = PArchive -> Forall2 (matches p) sols objs ->
    (forall d, resp = Some d -> nb_validate_save objs d = Ok tt) ->
    nb_iterate av p ideal nadir (QSave sols objs) resp s = (s', out) ->
    (resp = None /\ s' = s /\ out = Raise TypeErr) \/
    (exists d ix fs fo, resp = Some d /\ bd_indices d = Some ix /\ rows_at sols ix fs /\ rows_at objs ix fo /\
       s' = MkBS (bs_sol s) (bs_obj s) (bs_asols s ++ fs) (bs_aobjs s ++ fo) PIntermediate /\
       out = Ok (QInter ((bs_asols s ++ fs) ++ others sols ix) ((bs_aobjs s ++ fo) ++ others objs ix))).
  Proof.
    intros Hp HF HV. unfold nb_iterate, sbind, sget. rewrite Hp. destruct resp as [d|]; cbn [resp_].
    2:{ intros H. cbn [lift] in H. injection H as <- <-. auto. }
    specialize (HV _ eq_refl). apply validate_save_ok in HV as (ix & Hix & Hl & Hr).
    pose proof (F2len _ _ _ HF) as Hlen.
    assert (Hr' : Forall (fun z => (0 <= z < Z.of_nat (length sols))%Z) ix) by (rewrite Hlen; exact Hr).
    destruct (ztake_total objs ix Hr) as (fo & Hfo). destruct (ztake_total sols ix Hr') as (fs & Hfs).
    pose proof (proj1 (ztake_ok _ _ _ Hr) Hfo) as Rfo. pose proof (proj1 (ztake_ok _ _ _ Hr') Hfs) as Rfs.
    intros H. right. exists d, ix, fs, fo. repeat (split; [assumption || reflexivity|]).
    unfold lift in H. rewrite Hix in H. unfold key, nb_save, sbind, sget, sret, lift in H.
    replace (select (keep_mask (length objs) ix) objs) with (others objs ix) in H by (symmetry; apply keep_mask_others; auto).
    replace (select (keep_mask (length objs) ix) sols) with (others sols ix) in H by (rewrite <- Hlen; symmetry; apply keep_mask_others; auto).
    destruct (Nat.ltb_spec 0 (length ix)) as [L|L].
    - rewrite Hfo in H. unfold lift, smod in H. rewrite Hfs in H. injection H as <- <-.
      split; reflexivity.
    - destruct ix; [|cbn in L; lia]. inversion Rfo; inversion Rfs; subst. cbn in H. unfold smod in H.
      injection H as <- <-. rewrite !app_nil_r. destruct s; cbn in *. split; reflexivity.
  Qed.
  Lemma iter_inter s sols objs resp s' out : bs_phase s = PIntermediate -> Forall2 (matches p) sols objs ->
    nb_iterate av p ideal nadir (QInter sols objs) resp s = (s', out) ->
    (exists e, s' = s /\ out = Raise e /\ forall d, resp = Some d -> nb_handle_inter av p ideal nadir s sols objs d = Raise e) \/
    (exists d q, resp = Some d /\ nb_handle_inter av p ideal nadir s sols objs d = Ok q /\ out = Ok q /\
       ((exists sols' objs', q = QSave sols' objs' /\ Forall2 (matches p) sols' objs' /\ s' = w_phase PArchive s) \/
        (q = QPref sols objs /\ s' = w_phase PPreferred s))).
  Proof.
    intros Hp HF. unfold nb_iterate, sbind, sget, lift, smod, sret. rewrite Hp. destruct resp as [d|]; cbn [resp_].
    - destruct (nb_handle_inter av p ideal nadir s sols objs d) as [q|e] eqn:E.
      + destruct (handle_inter_shape _ _ _ _ _ E HF) as [(s1 & o1 & -> & G)| ->]; intros H; injection H as <- <-; right; eexists _, _; repeat (split; [reflexivity || eassumption|]); eauto 10.
      + intros H. injection H as <- <-. left. exists e. repeat split; auto. intros d' E'. injection E' as <-. auto.
    - intros H. injection H as <- <-. left. exists TypeErr. repeat split; auto. discriminate.
  Qed.
  Lemma iter_pref s sols objs resp s' out : bs_phase s = PPreferred -> Forall2 (matches p) sols objs ->
    (forall d, resp = Some d -> nb_validate_pref objs d = Ok tt) ->
    nb_iterate av p ideal nadir (QPref sols objs) resp s = (s', out) ->
    (resp = None /\ s' = s /\ out = Raise TypeErr) \/
    (exists d z b x f, resp = Some d /\ bd_index d = Some (VInt z) /\ bd_continue d = Some (VBool b) /\ (0 <= z)%Z /\
       nth_error sols (Z.to_nat z) = Some x /\ nth_error objs (Z.to_nat z) = Some f /\
       s' = MkBS x f (bs_asols s) (bs_aobjs s) (if b then PClassify else PEnd) /\
       out = Ok (if b then QClass f else QStop x f)).
  Proof.
    intros Hp HF HV. unfold nb_iterate, sbind, sget. rewrite Hp. destruct resp as [d|]; cbn [resp_].
    2:{ intros H. cbn [lift] in H. injection H as <- <-. auto. }
    specialize (HV _ eq_refl). apply validate_pref_ok in HV as (z & b & Hz & Hb & Hr).
    assert (L : Z.to_nat z < length objs) by lia.
    destruct (nth_error objs (Z.to_nat z)) as [f|] eqn:Ef; [|apply nth_error_None in Ef; lia].
    destruct (Forall2_nth _ _ _ _ _ HF Ef) as (x & Ex & _).
    intros H. right. exists d, z, b, x, f. repeat (split; [assumption || reflexivity || lia|]).
    unfold nb_handle_pref, sbind, lift, key in H. rewrite Hz in H. rewrite !py_nth_nonneg in H by lia.
    rewrite (proj2 (at_ok _ _ _) Ex), (proj2 (at_ok _ _ _) Ef) in H. unfold smod, sget, sret in H. rewrite Hb in H.
    destruct b; injection H as <- <-; split; reflexivity.
  Qed.

  (** ** The invariant *)
  Lemma w_phase_inv ph s qs : inv s qs -> inv (w_phase ph s) qs.
  Proof. intros H. exact H. Qed.
  Lemma rows_at_good sols objs ix fs fo : Forall2 (matches p) sols objs -> rows_at sols ix fs -> rows_at objs ix fo -> Forall2 (matches p) fs fo.
  Proof. apply rows_at_Forall2. Qed.

  Lemma inv_step s qs q resp s' out : inv s qs -> In q qs ->
    (forall d, resp = Some d -> nb_validate p ideal nadir q d = Ok tt) ->
    nb_iterate av p ideal nadir q resp s = (s', out) ->
    inv s' (match out with Ok q' => q' :: qs | Raise _ => qs end) /\
    (forall e, out = Raise e -> s' = s) /\
    (forall q', out = Ok q' -> advances (bs_phase s) q' (bs_phase s')) /\
    (exists e1 e2, bs_asols s' = bs_asols s ++ e1 /\ bs_aobjs s' = bs_aobjs s ++ e2).
  Proof.
    intros (I1 & I2 & I3) Hin HV H.
    assert (Hg : good q) by (rewrite Forall_forall in I3; auto).
    assert (Idem : exists e1 e2 : mat, bs_asols s = bs_asols s ++ e1 /\ bs_aobjs s = bs_aobjs s ++ e2) by (exists [], []; rewrite !app_nil_r; auto).
    assert (Same : forall e, s' = s -> out = Raise e -> inv s' (match out with Ok q' => q' :: qs | Raise _ => qs end) /\
      (forall e, out = Raise e -> s' = s) /\ (forall q', out = Ok q' -> advances (bs_phase s) q' (bs_phase s')) /\
      (exists e1 e2, bs_asols s' = bs_asols s ++ e1 /\ bs_aobjs s' = bs_aobjs s ++ e2)).
    { intros e -> ->. split; [repeat split; auto|]. split; [auto|]. split; [discriminate|auto]. }
    destruct (bs_phase s) eqn:Ep.
    - destruct q as [f| | | |]; try (rewrite iter_wrong in H by (rewrite Ep; (discriminate || intros [])); injection H as <- <-; eapply Same; reflexivity).
      apply iter_cls in H; auto. destruct H as [(e & E1 & E2)|(d & q & -> & Hh & -> & ->)]; [eapply Same; eauto|].
      apply handle_cls_shape in Hh as (sols & objs & -> & G). split; [repeat split; cbn; auto|]. split; [discriminate|].
      split; auto. intros q' E. injection E as <-. cbn. eauto.
    - destruct q as [|sols objs| | |]; try (rewrite iter_wrong in H by (rewrite Ep; (discriminate || intros [])); injection H as <- <-; eapply Same; reflexivity).
      apply iter_save in H; auto. destruct H as [(_ & E1 & E2)|(d & ix & fs & fo & -> & Hix & Rs & Ro & -> & ->)]; [eapply Same; eauto|].
      assert (GA : Forall2 (matches p) (bs_asols s ++ fs) (bs_aobjs s ++ fo)) by (apply Forall2_app; auto; eapply rows_at_good; eauto).
      split; [split; [exact I1|split; [exact GA|constructor; [|exact I3]]]|].
      { cbn. apply Forall2_app; auto. apply others_Forall2. exact Hg. }
      split; [discriminate|]. split; [|cbn; eauto]. intros q' E. injection E as <-. cbn. eauto.
    - destruct q as [| |sols objs| |]; try (rewrite iter_wrong in H by (rewrite Ep; (discriminate || intros [])); injection H as <- <-; eapply Same; reflexivity).
      apply iter_inter in H; auto. destruct H as [(e & E1 & E2 & _)|(d & q & -> & _ & -> & [(s1 & o1 & -> & G & ->)|(-> & ->)])]; [eapply Same; eauto| |].
      + split; [repeat split; cbn; auto|]. split; [discriminate|]. split; auto. intros q' E. injection E as <-. cbn. eauto.
      + split; [repeat split; cbn; auto|]. split; [discriminate|]. split; auto. intros q' E. injection E as <-. cbn. eauto.
    - destruct q as [| | |sols objs|]; try (rewrite iter_wrong in H by (rewrite Ep; (discriminate || intros [])); injection H as <- <-; eapply Same; reflexivity).
      apply iter_pref in H; auto. destruct H as [(_ & E1 & E2)|(d & z & b & x & f & -> & Hz & Hb & Hp & Ex & Ef & -> & ->)]; [eapply Same; eauto|].
      assert (M : matches p x f) by (destruct (Forall2_nth _ _ _ _ _ Hg Ef) as (x' & Ex' & M); congruence).
      split; [split; [exact M|split; [exact I2|constructor; auto]]|].
      { destruct b; cbn; eauto. }
      split; [discriminate|]. split; [|exact Idem]. intros q' E. injection E as <-. cbn. destruct b; eauto 10.
    - rewrite iter_end in H by auto. injection H as <- <-. split; [repeat split; auto|]. split; [discriminate|]. split; auto.
  Qed.

  Lemma inv_init start x0 s0 : nb_init av p ideal nadir start x0 = Ok s0 -> inv s0 [nb_start s0] /\ bs_asols s0 = [] /\ bs_aobjs s0 = [] /\ bs_phase s0 = PClassify.
  Proof.
    unfold nb_init. destruct (negb (nb_start_ok start ideal)); [discriminate|]. destruct p as [n ev co mi|n objs decs cl] eqn:Ep; intros H.
    - apply rbind_ok in H as ([x b] & _ & H). destruct b; cbn [snd negb fst] in H; [|discriminate]. injection H as <-. cbn.
      repeat split; auto; try constructor; cbn; try rewrite Ep; cbn; auto; try constructor.
      exists x. reflexivity.
    - apply rbind_ok in H as (i & _ & H). apply rbind_ok in H as (x & Hx & H). apply rbind_ok in H as (f & Hf & H).
      injection H as <-. apply at_ok in Hx, Hf. unfold inv; cbn. rewrite Ep. cbn.
      repeat split; eauto. constructor; eauto. cbn. rewrite Ep. cbn. eauto.
  Qed.

  Lemma inv_reach start x0 s0 s qs : nb_init av p ideal nadir start x0 = Ok s0 ->
    nb_reach av p ideal nadir s0 s qs -> inv s qs.
  Proof.
    intros H0. induction 1 as [|s qs q resp s' out HR IH Hin HV H].
    - apply inv_init in H0. tauto.
    - eapply inv_step; eauto.
  Qed.
  Lemma later_reach s0 s qs s' qs' : nb_reach av p ideal nadir s0 s qs -> nb_later av p ideal nadir s qs s' qs' -> nb_reach av p ideal nadir s0 s' qs'.
  Proof. intros H. induction 1; auto. eapply nb_reach_step; eauto. Qed.
  Lemma later_prefix start x0 s0 s qs s' qs' : nb_init av p ideal nadir start x0 = Ok s0 ->
    nb_reach av p ideal nadir s0 s qs -> nb_later av p ideal nadir s qs s' qs' ->
    exists e1 e2, bs_asols s' = bs_asols s ++ e1 /\ bs_aobjs s' = bs_aobjs s ++ e2.
  Proof.
    intros H0 HR. induction 1 as [s qs|s qs s1 qs1 q resp s2 out HL IH Hin HV H].
    - exists [], []. rewrite !app_nil_r. auto.
    - destruct (IH HR) as (e1 & e2 & E1 & E2).
      assert (I : inv s1 qs1) by (eapply inv_reach; eauto; eapply later_reach; eauto).
      destruct (inv_step _ _ _ _ _ _ I Hin HV H) as (_ & _ & _ & f1 & f2 & F1 & F2).
      exists (e1 ++ f1), (e2 ++ f2). rewrite F1, F2, E1, E2, !app_assoc. auto.
  Qed.
End Machine.
