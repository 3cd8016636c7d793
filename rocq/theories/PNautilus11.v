(** * NAUTILUS: a full step back undoes the last step. *)
From Coq Require Import ZArith List Bool Lia.
From Verif Require Import Num Py Np Spec NpFacts Hoare MNautilus SNautilus SNautBack PNautilus5 PNautilus10.
Import ListNotations.

(** Lists that differ at most in slot [i]. *)
Definition but {A} (i : nat) (l l' : list A) : Prop := length l = length l' /\ forall j, j <> i -> nth_error l j = nth_error l' j.
Lemma but_refl {A} i (l : list A) : but i l l.
Proof. split; auto. Qed.
Lemma but_sym {A} i (l l' : list A) : but i l l' -> but i l' l.
Proof. intros [H1 H2]. split; auto. intros j Hj. symmetry. auto. Qed.
Lemma but_trans {A} i (l l' l'' : list A) : but i l l' -> but i l' l'' -> but i l l''.
Proof. intros [H1 H2] [H3 H4]. split; [congruence|]. intros j Hj. rewrite H2, H4; auto. Qed.
Lemma but_set {A} i (l r : list A) x : set_ l i x = Ok r -> but i l r.
Proof.
  intros H. apply set_ok_inv in H. split; [symmetry; eapply set_nth_length; eauto|]. intros j Hj. symmetry. eapply set_nth_get_other; eauto.
Qed.
Lemma nth_ext_err {A} (l : list A) : forall l', (forall j, nth_error l j = nth_error l' j) -> l = l'.
Proof.
  induction l as [|a l IH]; intros [|b l'] H; auto; try (specialize (H 0); discriminate H).
  pose proof (H 0) as H0. injection H0 as <-. f_equal. apply IH. intros j. exact (H (S j)).
Qed.
Lemma but_write {A} i (l l' r : list A) x : but i l l' -> set_ l i x = Ok r -> set_ l' i x = Ok r.
Proof.
  intros [HL HN] H. pose proof (set_ok_inv _ _ _ _ H) as H1.
  assert (Hi : i < length l) by (apply (set_nth_some l i x); eauto).
  destruct (set_ok l' i x ltac:(lia)) as (r' & E1 & E2). rewrite E1. f_equal. apply nth_ext_err. intros j.
  destruct (Nat.eq_dec i j) as [<-|Hj].
  - rewrite (set_nth_get_same _ _ _ _ E2), (set_nth_get_same _ _ _ _ H1). reflexivity.
  - rewrite (set_nth_get_other _ _ _ _ _ E2 Hj), (set_nth_get_other _ _ _ _ _ H1 Hj). symmetry. auto.
Qed.

Section Undo.
  Context {N : NumOps} (p : nt_problem N) (v : nt_variant N) (eps : N) (ideal nadir : list N).

  (** Objects that differ at most in what is kept for the current step. *)
  Definition agree (s t : nt_state N) : Prop :=
    ns_step s = ns_step t /\ ns_n s = ns_n t /\ ns_left s = ns_left t /\
    but (ns_step s) (ns_zs s) (ns_zs t) /\ but (ns_step s) (ns_xs s) (ns_xs t) /\ but (ns_step s) (ns_fs s) (ns_fs t) /\
    but (ns_step s) (ns_ds s) (ns_ds t) /\ but (ns_step s + nt_off v) (ns_lb s) (ns_lb t) /\ but (ns_step s + nt_off v) (ns_ub s) (ns_ub t).
  Lemma agree_refl s : agree s s.
  Proof. unfold agree. auto 12 using but_refl. Qed.
  Lemma agree_sym s t : agree s t -> agree t s.
  Proof. unfold agree. intros (E1 & E2 & E3 & H). rewrite <- E1. decompose [and] H. auto 12 using but_sym. Qed.
  Lemma agree_trans s t r : agree s t -> agree t r -> agree s r.
  Proof.
    unfold agree. intros (E1 & E2 & E3 & H) (E4 & E5 & E6 & H'). rewrite <- E1 in *. decompose [and] H. decompose [and] H'. clear H H'.
    do 3 (split; [congruence|]). repeat split; eauto using but_trans; eapply but_trans; eauto.
  Qed.

  (** The steps of a new solution write only what is kept for the current step. *)
  Definition frame {A} (m : SE (nt_state N) A) : Prop := forall s s' r, m s = (s', r) -> agree s s'.
  Lemma frame_bind {A B} (m : SE (nt_state N) A) (f : A -> SE (nt_state N) B) : frame m -> (forall a, frame (f a)) -> frame (sbind m f).
  Proof.
    intros Hm Hf s s' r H. unfold sbind in H. destruct (m s) as [s1 [a|e]] eqn:E.
    - eapply agree_trans; [eapply Hm; eauto|eapply Hf; eauto].
    - injection H as <- _. eapply Hm; eauto.
  Qed.
  Lemma frame_get {A} (f : nt_state N -> SE (nt_state N) A) : (forall s s' r, f s s = (s', r) -> agree s s') -> frame (sbind sget f).
  Proof. intros Hf s s' r H. unfold sbind, sget in H. eauto. Qed.
  Lemma frame_lift {A} (x : res A) : frame (lift x).
  Proof. intros s s' r H. unfold lift in H. destruct x; injection H as <- _; apply agree_refl. Qed.
  Lemma frame_ret {A} (x : A) : frame (sret x).
  Proof. intros s s' r H. injection H as <- _. apply agree_refl. Qed.
  Lemma put_frame {A} (get : nt_state N -> list A) put i x s s' r :
    (forall l, but i (get s) l -> agree s (put s l)) -> nput get put i x s = (s', r) -> agree s s'.
  Proof.
    intros HP H. unfold nput, sbind, sget, lift, smod in H. destruct (set_ (get s) i x) as [l|e] eqn:E; injection H as <- _; [|apply agree_refl].
    apply HP. eapply but_set; eauto.
  Qed.
  Ltac pf := unfold agree; cbn [u_zs u_xs u_fs u_ds u_lb u_ub ns_step ns_n ns_left ns_zs ns_xs ns_fs ns_ds ns_lb ns_ub]; auto 12 using but_refl.
  Lemma bind_agree {A B} (m : SE (nt_state N) A) (f : A -> SE (nt_state N) B) s s' r :
    (forall s1 o, m s = (s1, o) -> agree s s1) -> (forall a s1 s2 r2, m s = (s1, Ok a) -> f a s1 = (s2, r2) -> agree s1 s2) -> sbind m f s = (s', r) -> agree s s'.
  Proof.
    intros Hm Hf H. unfold sbind in H. destruct (m s) as [s1 [a|e]] eqn:E.
    - eapply agree_trans; [eapply Hm; eauto|eapply Hf; eauto].
    - injection H as <- _. eapply Hm; eauto.
  Qed.
  Lemma agree_step s t : agree s t -> ns_step t = ns_step s.
  Proof. intros H. symmetry. apply H. Qed.
  Ltac put1 := intros; match goal with H : nput _ _ _ _ ?s = _ |- _ => revert H; apply put_frame; intros; pf end.
  Lemma put_zs x s s' r : nput ns_zs u_zs (ns_step s) x s = (s', r) -> agree s s'. Proof. put1. Qed.
  Lemma put_xs x s s' r : nput ns_xs u_xs (ns_step s) x s = (s', r) -> agree s s'. Proof. put1. Qed.
  Lemma put_fs x s s' r : nput ns_fs u_fs (ns_step s) x s = (s', r) -> agree s s'. Proof. put1. Qed.
  Lemma put_ds x s s' r : nput ns_ds u_ds (ns_step s) x s = (s', r) -> agree s s'. Proof. put1. Qed.
  Lemma put_lb x s s' r : nput ns_lb u_lb (ns_step s + nt_off v) x s = (s', r) -> agree s s'. Proof. put1. Qed.
  Lemma put_ub x s s' r : nput ns_ub u_ub (ns_step s + nt_off v) x s = (s', r) -> agree s s'. Proof. put1. Qed.

  (** One write after another, the step number staying. *)
  Ltac seq_put L1 := eapply bind_agree; [intros ? ? HH; revert HH; apply L1|let a := fresh "sa" in let b := fresh "sb" in let r := fresh "r" in let HH := fresh "HH" in let ES := fresh "ES" in let u := fresh "u" in intros u a b r HH; pose proof (agree_step _ _ (L1 _ _ _ _ HH)) as ES; rewrite <- ES; clear HH ES].
  Lemma solve_frame d : frame (nt_solve p v eps ideal nadir d).
  Proof.
    unfold nt_solve. apply frame_bind; [apply frame_lift|intros m]. apply frame_bind; [apply frame_lift|intros i]. apply frame_bind; [apply frame_lift|intros w].
    apply frame_get. intros s s' r. eapply bind_agree; [intros ? ?; apply frame_lift|]. intros q s1 s2 r2 H1. unfold lift in H1. destruct (slot _ _); [|discriminate]. injection H1 as <- _.
    eapply bind_agree; [intros ? ?; apply frame_lift|]. intros x s1 s3 r3 H1. unfold lift in H1. destruct (np_min _ _ _ _ _ _); [|discriminate]. injection H1 as <- _.
    seq_put put_xs. apply put_fs.
  Qed.
  Lemma lift_same {A} (x : res A) (s s1 : nt_state N) a : lift x s = (s1, Ok a) -> s1 = s.
  Proof. unfold lift. destruct x; intros H; injection H; auto. Qed.
  Lemma move_frame : frame nt_move.
  Proof.
    unfold nt_move. apply frame_get. intros s s' r.
    eapply bind_agree; [intros ? ?; apply frame_lift|]. intros z s1 s2 r2 H1. apply lift_same in H1. subst s1.
    eapply bind_agree; [intros ? ?; apply frame_lift|]. intros f s1 s3 r3 H1. apply lift_same in H1. subst s1.
    eapply bind_agree; [intros ? ?; apply frame_lift|]. intros z' s1 s4 r4 H1. apply lift_same in H1. subst s1. apply put_zs.
  Qed.
  Lemma report_frame : frame (nt_report p v ideal nadir).
  Proof.
    unfold nt_report. apply frame_get. intros s s' r.
    eapply bind_agree; [intros ? ?; apply frame_lift|]. intros z s1 s2 r2 H1. apply lift_same in H1. subst s1.
    eapply bind_agree; [intros ? ?; apply frame_lift|]. intros b s1 s3 r3 H1. apply lift_same in H1. subst s1.
    seq_put put_lb. seq_put put_ub.
    eapply bind_agree; [intros ? ?; apply frame_lift|]. intros f s8 s9 r9 H1. apply lift_same in H1. subst s8.
    eapply bind_agree; [intros ? ?; apply frame_lift|]. intros e s10 s11 r11 H1. apply lift_same in H1. subst s10.
    eapply bind_agree; [intros ? ?; apply put_ds|]. intros _ s12 s13 r13 _. apply frame_ret.
  Qed.
  Lemma half_frame : frame (nt_half p v ideal nadir).
  Proof.
    unfold nt_half. apply frame_get. intros s s' r.
    eapply bind_agree; [intros ? ?; apply frame_lift|]. intros z s1 s2 r2 H1. apply lift_same in H1. subst s1.
    eapply bind_agree; [intros ? ?; apply frame_lift|]. intros z0 s1 s3 r3 H1. apply lift_same in H1. subst s1.
    eapply bind_agree; [intros ? ?; apply frame_lift|]. intros z' s1 s4 r4 H1. apply lift_same in H1. subst s1.
    eapply bind_agree; [intros ? ?; apply put_zs|]. intros _ s1 s5 r5 _. apply report_frame.
  Qed.

  (** New preferences from the previous iteration point. *)
  Definition redo (d : nt_dict N) : SE (nt_state N) (nt_request N) := nt_solve p v eps ideal nadir d ;;; nt_move ;;; nt_report p v ideal nadir.
  Lemma redo_frame d : frame (redo d).
  Proof. unfold redo. apply frame_bind; [apply solve_frame|intros _]. apply frame_bind; [apply move_frame|intros _; apply report_frame]. Qed.

  (** What it computes. *)
  Definition redone (d : nt_dict N) (s s' : nt_state N) (q : nt_request N) : Prop :=
    exists m i w z0 x xs' fs' z' zs' b lb' ub' e ds',
      nd_method d = Some m /\ nd_info d = Some i /\ nt_weights v m i nadir (nt_utopian ideal eps) = Ok w /\
      slot (ns_zs s) (ns_step s - 1) = Ok z0 /\ np_min p w nadir (nt_utopian ideal eps) z0 (np_x0 p) = Ok x /\
      set_ (ns_xs s) (ns_step s) (Some x) = Ok xs' /\ set_ (ns_fs s) (ns_step s) (Some (np_eval p x)) = Ok fs' /\
      nt_point (ns_left s) z0 (np_eval p x) = Ok z' /\ set_ (ns_zs s) (ns_step s) (Some z') = Ok zs' /\
      nt_bounds p (length ideal) z' = Ok b /\ set_ (ns_lb s) (ns_step s + nt_off v) (Some b) = Ok lb' /\
      set_ (ns_ub s) (ns_step s + nt_off v) (Some z') = Ok ub' /\ nt_dist z' (nt_start v nadir) (np_eval p x) = Ok e /\
      set_ (ns_ds s) (ns_step s) (Some e) = Ok ds' /\
      s' = MkNT (ns_step s) (ns_n s) (ns_left s) zs' xs' fs' ds' lb' ub' /\ q = NReq z' b z' e.
  Lemma slot_set {A} (l r : list (option A)) i x : set_ l i (Some x) = Ok r -> slot r i = Ok x.
  Proof. intros H. apply set_ok_inv in H. apply set_nth_get_same in H. unfold slot, at_. rewrite H. reflexivity. Qed.
  Ltac nred := cbn [u_zs u_xs u_fs u_ds u_lb u_ub ns_step ns_n ns_left ns_zs ns_xs ns_fs ns_ds ns_lb ns_ub].
  Lemma redo_iff d s s' q : redo d s = (s', Ok q) <-> redone d s s' q.
  Proof.
    split.
    - unfold redo, nt_solve, nt_move, nt_report, nput, sbind, sget, lift, smod, sret.
      destruct (nd_method d) as [m|] eqn:Em; [|discriminate]. destruct (nd_info d) as [i|] eqn:Ei; [|discriminate]. cbn [key].
      destruct (nt_weights v m i nadir (nt_utopian ideal eps)) as [w|] eqn:Ew; [|discriminate].
      destruct (slot (ns_zs s) (ns_step s - 1)) as [z0|] eqn:Ez; [|discriminate].
      destruct (np_min p w nadir (nt_utopian ideal eps) z0 (np_x0 p)) as [x|] eqn:Ex; [|discriminate].
      destruct (set_ (ns_xs s) (ns_step s) (Some x)) as [xs'|] eqn:E1; [|discriminate]. nred.
      destruct (set_ (ns_fs s) (ns_step s) (Some (np_eval p x))) as [fs'|] eqn:E2; [|discriminate]. nred.
      rewrite Ez, (slot_set _ _ _ _ E2).
      destruct (nt_point (ns_left s) z0 (np_eval p x)) as [z'|] eqn:Ep; [|discriminate]. nred.
      destruct (set_ (ns_zs s) (ns_step s) (Some z')) as [zs'|] eqn:E3; [|discriminate]. nred.
      rewrite (slot_set _ _ _ _ E3).
      destruct (nt_bounds p (length ideal) z') as [b|] eqn:Eb; [|discriminate].
      destruct (set_ (ns_lb s) (ns_step s + nt_off v) (Some b)) as [lb'|] eqn:E4; [|discriminate]. nred.
      destruct (set_ (ns_ub s) (ns_step s + nt_off v) (Some z')) as [ub'|] eqn:E5; [|discriminate]. nred.
      rewrite (slot_set _ _ _ _ E2).
      destruct (nt_dist z' (nt_start v nadir) (np_eval p x)) as [e|] eqn:Ee; [|discriminate].
      destruct (set_ (ns_ds s) (ns_step s) (Some e)) as [ds'|] eqn:E6; [|discriminate]. nred.
      intros H. pose proof (f_equal fst H) as H1. pose proof (f_equal snd H) as H2. cbn [fst snd] in H1, H2. injection H2 as <-. subst s'.
      unfold redone. exists m, i, w, z0, x, xs', fs', z', zs', b, lb', ub', e, ds'. repeat (split; [assumption|]). split; reflexivity.
    - intros (m & i & w & z0 & x & xs' & fs' & z' & zs' & b & lb' & ub' & e & ds' & Em & Ei & Ew & Ez & Ex & E1 & E2 & Ep & E3 & Eb & E4 & E5 & Ee & E6 & -> & ->).
      unfold redo, nt_solve, nt_move, nt_report, nput, sbind, sget, lift, smod, sret. rewrite Em, Ei. cbn [key]. rewrite Ew, Ez, Ex, E1. nred. rewrite E2.
      nred. rewrite Ez, (slot_set _ _ _ _ E2), Ep. nred. rewrite E3.
      nred. rewrite (slot_set _ _ _ _ E3), Eb, E4.
      nred. rewrite E5. nred.
      rewrite (slot_set _ _ _ _ E2), Ee, E6. reflexivity.
  Qed.
  Lemma redo_agree d d' s t s' q : 1 <= ns_step s -> agree s t -> nd_method d' = nd_method d -> nd_info d' = nd_info d ->
    redo d s = (s', Ok q) -> redo d' t = (s', Ok q).
  Proof.
    intros Hs (A1 & A2 & A3 & B1 & B2 & B3 & B4 & B5 & B6) Em' Ei' H. apply redo_iff in H. apply redo_iff.
    destruct H as (m & i & w & z0 & x & xs' & fs' & z' & zs' & b & lb' & ub' & e & ds' & Em & Ei & Ew & Ez & Ex & E1 & E2 & Ep & E3 & Eb & E4 & E5 & Ee & E6 & -> & ->).
    exists m, i, w, z0, x, xs', fs', z', zs', b, lb', ub', e, ds'. rewrite Em', Ei', <- A1, <- A2, <- A3.
    do 3 (split; [assumption|]). split.
    { revert Ez. unfold slot, at_. destruct B1 as [_ B1]. rewrite (B1 (ns_step s - 1)) by lia. auto. }
    split; [assumption|]. do 2 (split; [eapply but_write; eassumption|]). split; [assumption|]. split; [eapply but_write; eassumption|]. split; [assumption|].
    do 2 (split; [eapply but_write; eassumption|]). split; [assumption|]. split; [eapply but_write; eassumption|]. split; reflexivity.
  Qed.

  Lemma handle_full_back d s : full_back d -> (1 < ns_left s)%Z -> nt_handle p v eps ideal nadir d s =
    match redo d s with (s', Ok q) => (s', Ok (Some q)) | (s', Raise e) => (s', Raise e) end.
  Proof.
    intros ((b & Eb & Tb) & (h & Eh & Th) & (u & Eu & Tu) & En) Hl. unfold nt_handle, nt_change. rewrite En, Eb, Eh, Eu. cbn [key]. unfold sbind, lift, sget, sret.
    destruct (Z.leb_spec (ns_left s) 1) as [G|_]; [lia|]. rewrite Tb, Th, Tu. cbn [negb]. unfold redo, sbind.
    destruct (nt_solve p v eps ideal nadir d s) as [sa [[]|ea]]; [|reflexivity]. destruct (nt_move sa) as [sb [[]|eb]]; [|reflexivity].
    destruct (nt_report p v ideal nadir sb) as [sc [q|ec]]; reflexivity.
  Qed.
  Lemma handle_renews d s : renews d -> (1 < ns_left s)%Z -> nt_handle p v eps ideal nadir d s =
    match redo d (u_next s) with (s', Ok q) => (s', Ok (Some q)) | (s', Raise e) => (s', Raise e) end.
  Proof.
    intros ((b & Eb & Tb) & (u & Eu & Tu) & En) Hl. unfold nt_handle, nt_change. rewrite En, Eb. cbn [key]. unfold nt_forward. rewrite Eu. cbn [key]. unfold sbind, lift, sget, sret, smod.
    destruct (Z.leb_spec (ns_left s) 1) as [G|_]; [lia|]. rewrite Tb, Tu. cbn [negb]. unfold redo, sbind.
    destruct (nt_solve p v eps ideal nadir d (u_next s)) as [sa [[]|ea]]; [|reflexivity]. destruct (nt_move sa) as [sb [[]|eb]]; [|reflexivity].
    destruct (nt_report p v ideal nadir sb) as [sc [q|ec]]; reflexivity.
  Qed.
  (** The end of a session. *)
  Lemma handle_end d s s' r : nd_n d = None -> (ns_left s <= 1)%Z -> nt_handle p v eps ideal nadir d s = (s', r) ->
    (ns_left s' <= 1)%Z /\ forall q, r = Ok (Some q) -> exists x f, q = NStop x f.
  Proof.
    intros En Hl. unfold nt_handle, nt_change. rewrite En. unfold sbind, sret, sget, smod, lift. destruct (Z.leb_spec (ns_left s) 1) as [_|G]; [|lia].
    destruct (at_ (ns_xs s) (ns_step s)) as [x|]; [destruct (at_ (ns_fs s) (ns_step s)) as [f|]|]; intros H; pose proof (f_equal fst H) as H1; pose proof (f_equal snd H) as H2;
      cbn [fst snd] in H1, H2; subst s' r; (split; [cbn; lia|]); intros q E; try discriminate E. injection E as <-. eauto.
  Qed.
  (** Any step back keeps all but the current step, unless the session ends. *)
  Lemma handle_back d s s' r : nd_n d = None -> says (nd_back d) true -> (1 < ns_left s)%Z -> nt_handle p v eps ideal nadir d s = (s', r) -> agree s s'.
  Proof.
    intros En (b & Eb & Tb) Hl. unfold nt_handle, nt_change. rewrite En, Eb. cbn [key]. intros H. unfold sbind at 1 in H. cbn [sret] in H. unfold sbind at 1 in H. cbn [sget] in H.
    destruct (Z.leb_spec (ns_left s) 1) as [G|_]; [lia|]. unfold sbind at 1 in H. cbn [lift] in H. rewrite Tb in H. cbn [negb] in H. revert H. revert s s' r Hl.
    enough (F : frame (h <-- lift (key (nd_short d));; (if truthy h then q <-- nt_half p v ideal nadir;; sret (Some q)
       else u <-- lift (key (nd_prev d));; (if truthy u then sret None else nt_solve p v eps ideal nadir d;;; nt_move;;; q <-- nt_report p v ideal nadir;; sret (Some q))))).
    { intros s s' r _ H. eapply F; eauto. }
    apply frame_bind; [apply frame_lift|intros h]. destruct (truthy h).
    - apply frame_bind; [apply half_frame|intros q; apply frame_ret].
    - apply frame_bind; [apply frame_lift|intros u]. destruct (truthy u); [apply frame_ret|].
      apply frame_bind; [apply solve_frame|intros _]. apply frame_bind; [apply move_frame|intros _]. apply frame_bind; [apply report_frame|intros q; apply frame_ret].
  Qed.
  (** A step forward: the counters move, and only what is kept for the new step is written. *)
  Lemma handle_fwd d s s' r : nd_n d = None -> says (nd_back d) false -> (1 < ns_left s)%Z -> nt_handle p v eps ideal nadir d s = (s', r) -> agree (u_next s) s'.
  Proof.
    intros En (b & Eb & Tb) Hl. unfold nt_handle, nt_change. rewrite En, Eb. cbn [key]. intros H. unfold sbind at 1 in H. cbn [sret] in H. unfold sbind at 1 in H. cbn [sget] in H.
    destruct (Z.leb_spec (ns_left s) 1) as [G|_]; [lia|]. unfold sbind at 1 in H. cbn [lift] in H. rewrite Tb in H. cbn [negb] in H.
    unfold nt_forward, smod in H. unfold sbind at 1 2 in H. revert H. generalize (u_next s) as t. clear. intros t H.
    match type of H with (match ?m t with _ => _ end = _) => assert (F : frame m) end.
    { apply frame_bind; [apply frame_lift|intros u]. apply frame_bind.
      - destruct (truthy u); [|apply solve_frame]. apply frame_get. intros s0 s0' r0.
        eapply bind_agree; [intros ? ?; apply frame_lift|]. intros x s1 s2 r2 H1. apply lift_same in H1. subst s1.
        seq_put put_xs. eapply bind_agree; [intros ? ?; apply frame_lift|]. intros f s3 s4 r4 H1. apply lift_same in H1. subst s3. apply put_fs.
      - intros _. apply frame_bind; [apply move_frame|intros _; apply report_frame]. }
    match type of H with (match ?m t with _ => _ end = _) => destruct (m t) as [t1 [q|e]] eqn:E1 end.
    - injection H as <- _. eapply F; eauto.
    - injection H as <- _. eapply F; eauto.
  Qed.


  Lemma iterate_req z lo up e d s : nt_iterate p v eps ideal nadir (NReq z lo up e) (Some d) s = nt_handle p v eps ideal nadir d s.
  Proof. reflexivity. Qed.
  Lemma went_inv s q s2 q2 : went_back p v eps ideal nadir s q s2 q2 -> agree s s2 \/ (exists x f, q2 = NStop x f) \/ (ns_left s2 <= 1)%Z.
  Proof.
    induction 1 as [s q|s q s1 q1 d s2 out _ IH HV HB HN HI]; [left; apply agree_refl|].
    destruct q1 as [|z lo up e|x f].
    - exfalso. cbn in HV. rewrite HN in HV. discriminate HV.
    - rewrite iterate_req in HI. destruct (Z.le_gt_cases (ns_left s1) 1) as [Hl|Hl].
      + destruct (handle_end d s1 s2 out HN Hl HI) as [G _]. auto.
      + destruct IH as [IH|[(x & f & E)|IH]]; [|discriminate E|lia]. left. eapply agree_trans; [exact IH|]. eapply handle_back; eauto.
    - cbn in HI. injection HI as <- <-. right. left. eauto.
  Qed.
  (** After steps back, a full step back gives what the same preferences give on the object [t]. *)
  Lemma went_redo s q s2 q2 t b b' s3 z' lo' up' e' : 1 <= ns_step t -> agree t s ->
    went_back p v eps ideal nadir s q s2 q2 -> full_back b' -> nd_method b' = nd_method b -> nd_info b' = nd_info b ->
    nt_iterate p v eps ideal nadir q2 (Some b') s2 = (s3, Ok (Some (NReq z' lo' up' e'))) -> (1 < ns_left t)%Z /\ redo b t = (s3, Ok (NReq z' lo' up' e')).
  Proof.
    intros Hst HA HW HF Em Ei HI. destruct q2 as [|z2 lo2 up2 e2|x f]; [exfalso|rewrite iterate_req in HI|cbn in HI; discriminate HI].
    { cbn in HI. unfold sbind, lift, nt_handle_initial, sbind, lift in HI. destruct HF as (_ & _ & _ & En). rewrite En in HI. cbn in HI. discriminate HI. }
    destruct (Z.le_gt_cases (ns_left s2) 1) as [Hl|Hl].
    { destruct HF as (_ & _ & _ & En). destruct (handle_end b' s2 _ _ En Hl HI) as [_ G]. destruct (G _ eq_refl) as (x & f & E). discriminate E. }
    assert (HA2 : agree t s2).
    { destruct (went_inv s q s2 _ HW) as [G|[(x & f & E)|G]]; [eapply agree_trans; eauto|discriminate E|lia]. }
    rewrite (handle_full_back b' s2 HF Hl) in HI. destruct (redo b' s2) as [s4 [q4|e4]] eqn:E4; [|discriminate HI].
    assert (E5 : s4 = s3 /\ q4 = NReq z' lo' up' e') by (split; [exact (f_equal fst HI)|assert (E := f_equal snd HI); cbn [snd] in E; congruence]). destruct E5 as [-> ->].
    assert (G : 1 <= ns_step s2) by (rewrite (agree_step _ _ HA2); exact Hst). split.
    - destruct HA2 as (_ & _ & E & _). lia.
    - exact (redo_agree b' b s2 t s3 _ G (agree_sym _ _ HA2) (eq_sym Em) (eq_sym Ei) E4).
  Qed.
  Lemma undo_forward s z lo up e a s1 q1 s2 q2 b b' s3 z' lo' up' e' :
    nt_iterate p v eps ideal nadir (NReq z lo up e) (Some a) s = (s1, Ok (Some q1)) -> says (nd_back a) false -> nd_n a = None ->
    went_back p v eps ideal nadir s1 q1 s2 q2 -> full_back b' -> renews b -> nd_method b' = nd_method b -> nd_info b' = nd_info b ->
    nt_iterate p v eps ideal nadir q2 (Some b') s2 = (s3, Ok (Some (NReq z' lo' up' e'))) ->
    nt_iterate p v eps ideal nadir (NReq z lo up e) (Some b) s = (s3, Ok (Some (NReq z' lo' up' e'))).
  Proof.
    intros HI HB HN HW HF HR Em Ei HI2. rewrite iterate_req in *. destruct (Z.le_gt_cases (ns_left s) 1) as [Hl|Hl].
    { destruct (handle_end a s s1 _ HN Hl HI) as [_ G]. destruct (G _ eq_refl) as (x & f & ->). exfalso.
      enough (GG : exists x f, q2 = NStop x f) by (destruct GG as (? & ? & ->); cbn in HI2; discriminate HI2). clear - HW.
      remember (NStop x f) as q1 eqn:E. induction HW as [s q|s q s1' q1' d s2' out _ IH _ _ _ HI]; [eauto|]. destruct (IH E) as (x' & f' & ->). cbn in HI. injection HI as _ <-. eauto. }
    pose proof (handle_fwd a s s1 _ HN HB Hl HI) as HA.
    destruct (went_redo s1 q1 s2 q2 (u_next s) b b' s3 z' lo' up' e' ltac:(cbn; lia) HA HW HF Em Ei HI2) as [_ G].
    rewrite (handle_renews b s HR Hl), G. reflexivity.
  Qed.

  (** The first request. *)
  Definition fresh (n : Z) (t : nt_state N) : Prop :=
    exists zs lb ub, let b {A} : list (option A) := repeat None (Z.to_nat (n + 2)) in
      set_ b 0 (Some (nt_start v nadir)) = Ok zs /\ set_ b (0 + nt_off v) (Some ideal) = Ok lb /\ set_ b (0 + nt_off v) (Some nadir) = Ok ub /\
      t = MkNT 1 n n zs b b b lb ub.
  Lemma initial_fresh d o n s' q : nd_n d = Some o -> as_int o = Some n -> nt_handle_initial p v eps ideal nadir d nt_init = (s', Ok q) ->
    exists t, fresh n t /\ redo d t = (s', Ok q).
  Proof.
    intros Eo En H. unfold nt_handle_initial in H. rewrite Eo in H. cbn [key] in H. unfold sbind at 1 in H. cbn [lift] in H. rewrite En in H.
    unfold sbind at 1 in H. cbn [lift] in H. unfold sbind at 1 in H. cbn [smod] in H. unfold sbind at 1 in H. cbn [sget nt_init ns_step Nat.sub] in H.
    unfold nput at 1 in H. unfold sbind at 1 2 in H. cbn [sget ns_zs] in H. unfold sbind at 1 in H.
    destruct (set_ (repeat None (Z.to_nat (n + 2))) 0 (Some (nt_start v nadir))) as [zs|] eqn:E1; [|discriminate H]. cbn [lift smod] in H.
    unfold sbind at 1 in H. destruct (nd_method d) as [m|] eqn:Em; [|discriminate H]. cbn [key lift] in H.
    unfold sbind at 1 in H. destruct (nd_info d) as [i|] eqn:Ei; [|discriminate H]. cbn [key lift] in H.
    unfold sbind at 1 in H. destruct (nt_weights v m i nadir (nt_utopian ideal eps)) as [w|] eqn:Ew; [|discriminate H]. cbn [lift] in H.
    unfold nput at 1 in H. unfold sbind at 1 2 in H. cbn [sget u_zs ns_lb] in H. unfold sbind at 1 in H.
    destruct (set_ (repeat None (Z.to_nat (n + 2))) (0 + nt_off v) (Some ideal)) as [lb|] eqn:E2; [|discriminate H]. cbn [lift smod] in H.
    unfold nput at 1 in H. unfold sbind at 1 2 in H. cbn [sget u_zs u_lb ns_ub] in H. unfold sbind at 1 in H.
    destruct (set_ (repeat None (Z.to_nat (n + 2))) (0 + nt_off v) (Some nadir)) as [ub|] eqn:E3; [|discriminate H]. cbn [lift smod] in H.
    eexists. split; [exists zs, lb, ub; cbv zeta; split; [exact E1|split; [exact E2|split; [exact E3|reflexivity]]]|]. exact H.
  Qed.
  Lemma fresh_initial d o n s' q t : nd_n d = Some o -> as_int o = Some n -> fresh n t -> redo d t = (s', Ok q) ->
    nt_handle_initial p v eps ideal nadir d nt_init = (s', Ok q).
  Proof.
    intros Eo En (zs & lb & ub & E1 & E2 & E3 & ->) H. assert (H' := H). apply redo_iff in H'.
    destruct H' as (m & i & w & _ & _ & _ & _ & _ & _ & _ & _ & _ & _ & _ & Em & Ei & Ew & _).
    unfold nt_handle_initial. rewrite Eo. cbn [key]. unfold sbind at 1. cbn [lift]. rewrite En.
    unfold sbind at 1. cbn [lift]. unfold sbind at 1. cbn [smod]. unfold sbind at 1. cbn [sget nt_init ns_step Nat.sub].
    unfold nput at 1. unfold sbind at 1 2. cbn [sget ns_zs]. unfold sbind at 1. rewrite E1. cbn [lift smod].
    unfold sbind at 1. rewrite Em. cbn [key lift]. unfold sbind at 1. rewrite Ei. cbn [key lift].
    unfold sbind at 1. rewrite Ew. cbn [lift]. unfold nput at 1. unfold sbind at 1 2. cbn [sget u_zs ns_lb]. unfold sbind at 1. rewrite E2. cbn [lift smod].
    unfold nput at 1. unfold sbind at 1 2. cbn [sget u_zs u_lb ns_ub]. unfold sbind at 1. rewrite E3. cbn [lift smod]. exact H.
  Qed.

  Lemma undo_initial a o n s1 q1 s2 q2 b b' s3 z' lo' up' e' :
    nd_n a = Some o -> as_int o = Some n ->
    nt_iterate p v eps ideal nadir NInit (Some a) nt_init = (s1, Ok (Some q1)) ->
    went_back p v eps ideal nadir s1 q1 s2 q2 -> full_back b' -> nd_n b = nd_n a -> nd_method b' = nd_method b -> nd_info b' = nd_info b ->
    nt_iterate p v eps ideal nadir q2 (Some b') s2 = (s3, Ok (Some (NReq z' lo' up' e'))) ->
    nt_iterate p v eps ideal nadir NInit (Some b) nt_init = (s3, Ok (Some (NReq z' lo' up' e'))).
  Proof.
    intros Ea En HI HW HF Eb Em Ei HI2. cbn [nt_iterate nt_resp] in *. unfold sbind at 1 in HI. unfold sbind at 1. cbn [lift] in *.
    unfold sbind, sret in HI. destruct (nt_handle_initial p v eps ideal nadir a nt_init) as [sa [qa|ea]] eqn:E1; [|discriminate HI].
    assert (E2 : sa = s1 /\ qa = q1) by (split; [exact (f_equal fst HI)|assert (E := f_equal snd HI); cbn [snd] in E; congruence]). destruct E2 as [-> ->].
    destruct (initial_fresh a o n s1 q1 Ea En E1) as (t & Ht & E2).
    assert (Hst : ns_step t = 1) by (destruct Ht as (zs & lb & ub & _ & _ & _ & ->); reflexivity).
    destruct (went_redo s1 q1 s2 q2 t b b' s3 z' lo' up' e' ltac:(lia) (redo_frame a t s1 _ E2) HW HF Em Ei HI2) as [_ G].
    unfold sbind. rewrite (fresh_initial b o n s3 _ t ltac:(congruence) En Ht G). reflexivity.
  Qed.
End Undo.
