(** * NAUTILUS: every array access is within bounds (shape of the state). *)
From Coq Require Import ZArith List Bool Lia.
From Verif Require Import Num Py Np Spec NpFacts Hoare PRpm MNautilus.
Import ListNotations.

Lemma rseq_all {A B} (f : A -> res B) l : (forall a, In a l -> exists b, f a = Ok b) -> exists v, rseq (map f l) = Ok v.
Proof.
  induction l as [|a l IH]; intros H; [exists []; reflexivity|]. destruct (H a (or_introl eq_refl)) as (b & Hb).
  destruct IH as (v & Hv); [intros x Hx; apply H; right; exact Hx|]. exists (b :: v). cbn. rewrite Hb, Hv. reflexivity.
Qed.

Section Shape.
  Context {N : NumOps} (p : nt_problem N) (v : nt_variant N) (eps : N) (ideal nadir : list N).
  Notation vec := (list N).

  (** All buffers have length [L]; the counters. *)
  Definition shape (L st : nat) (n l : Z) (s : nt_state N) : Prop :=
    ns_step s = st /\ ns_n s = n /\ ns_left s = l /\
    length (ns_zs s) = L /\ length (ns_xs s) = L /\ length (ns_fs s) = L /\ length (ns_ds s) = L /\ length (ns_lb s) = L /\ length (ns_ub s) = L.

  Lemma nput_hs {A} (get : nt_state N -> list A) put i (x : A) (P : nt_state N -> Prop) (Q : unit -> nt_state N -> Prop) E :
    (forall s, P s -> i < length (get s)) ->
    (forall s l', P s -> set_nth (get s) i x = Some l' -> Q tt (put s l')) -> hs P (nput get put i x) Q E.
  Proof.
    intros Hi HQ. unfold nput. apply hs_get_bind. intros s0 H0. destruct (set_ok (get s0) i x (Hi _ H0)) as (l' & E1 & E2).
    rewrite E1. apply hs_lift_bind; [discriminate|]. intros a Ea. injection Ea as <-. apply hs_mod. intros s ->. apply HQ; auto.
  Qed.

  (** The solver and the weights do not raise IndexError; objective vectors have
      one component per objective. *)
  Context (HM : forall w n u q x0, np_min p w n u q x0 <> Raise IndexErr) (HE : forall i e x0, np_ecm p i e x0 <> Raise IndexErr)
          (HF : forall x, length (np_eval p x) = length ideal).
  Definition NI (L st : nat) (n l : Z) (e : exn) (s : nt_state N) : Prop := shape L st n l s /\ e <> IndexErr.
  Definition weights_safe (d : nt_dict N) : Prop :=
    forall m i, nd_method d = Some m -> nd_info d = Some i -> nt_weights v m i nadir (nt_utopian ideal eps) <> Raise IndexErr.

  Ltac sh := unfold shape in *; cbn [u_zs u_xs u_fs u_ds u_lb u_ub ns_step ns_n ns_left ns_zs ns_xs ns_fs ns_ds ns_lb ns_ub] in *;
             intuition (try lia; try congruence).
  Ltac put := match goal with
    | |- hs _ (nput _ _ _ _) _ _ => apply nput_hs;
        [intros ? ?; sh | intros ? ? ? ?HS; apply set_nth_length in HS; sh]
    | |- hs _ (sbind (nput _ _ _ _) _) _ _ => eapply (hs_bind _ _ _ (fun _ => shape _ _ _ _)); [apply nput_hs;
        [intros ? ?; sh | intros ? ? ? ?HS; apply set_nth_length in HS; sh]|intros []]
    end.
  Ltac get := apply hs_get_bind; intros ?s0 ?H0; apply (hs_pre _ (shape _ _ _ _)) with (P' := shape _ _ _ _); [intros ? ->; exact H0|].
  Lemma slot_err {A} (l : list (option A)) i e : i < length l -> slot l i = Raise e -> e <> IndexErr.
  Proof.
    unfold slot, at_. intros Hi. destruct (nth_error l i) as [[a|]|] eqn:E; cbn [rbind]; try congruence.
    apply nth_error_None in E. lia.
  Qed.
  Lemma at_noerr {A} (l : list A) i e : i < length l -> at_ l i = Raise e -> False.
  Proof. unfold at_. intros Hi. destruct (nth_error l i) eqn:E; [discriminate|]. apply nth_error_None in E. lia. Qed.

  Lemma solve_shape d L st n l : 1 <= st < L -> weights_safe d ->
    hs (shape L st n l) (nt_solve p v eps ideal nadir d) (fun _ => shape L st n l) (NI L st n l).
  Proof.
    intros HL HW. unfold nt_solve.
    apply hs_lift_bind; [intros e s He Hs; split; [exact Hs|]; unfold key in He; destruct (nd_method d); congruence|]. intros m Hm.
    apply hs_lift_bind; [intros e s He Hs; split; [exact Hs|]; unfold key in He; destruct (nd_info d); congruence|]. intros i Hi.
    apply hs_lift_bind.
    { intros e s He Hs. split; [exact Hs|]. intros ->. revert He. apply HW; unfold key in *; [destruct (nd_method d)|destruct (nd_info d)]; congruence. }
    intros w Hw. apply hs_get_bind; intros s0 H0; apply (hs_pre _ (shape L st n l)); [intros ? ->; exact H0|].
    replace (ns_step s0) with st by sh.
    apply hs_lift_bind; [intros e s He Hs; split; [exact Hs|]; apply slot_err in He; [exact He|sh]|]. intros q Hq.
    apply hs_lift_bind; [intros e s He Hs; split; [exact Hs|]; intros ->; exact (HM _ _ _ _ _ He)|]. intros x Hx.
    eapply (hs_bind _ _ _ (fun _ => shape L st n l)).
    - apply nput_hs; [intros ? ?; sh|]. intros s l' Hs HS. apply set_nth_length in HS. sh.
    - intros []. apply nput_hs; [intros ? ?; sh|]. intros s l' Hs HS. apply set_nth_length in HS. sh.
  Qed.
  Lemma move_shape L st n l : 1 <= st < L -> hs (shape L st n l) nt_move (fun _ => shape L st n l) (NI L st n l).
  Proof.
    intros HL. unfold nt_move. apply hs_get_bind; intros s0 H0; apply (hs_pre _ (shape L st n l)); [intros ? ->; exact H0|].
    replace (ns_step s0) with st by sh.
    apply hs_lift_bind; [intros e s He Hs; split; [exact Hs|]; apply slot_err in He; [exact He|sh]|]. intros z _.
    apply hs_lift_bind; [intros e s He Hs; split; [exact Hs|]; apply slot_err in He; [exact He|sh]|]. intros f _.
    apply hs_lift_bind.
    { intros e s He Hs. split; [exact Hs|]. unfold nt_point in He. destruct (_ =? 0)%Z; [congruence|]. apply bcast_err in He. congruence. }
    intros z' _. apply nput_hs; [intros ? ?; sh|]. intros s l' Hs HS. apply set_nth_length in HS. sh.
  Qed.
  Lemma bounds_err z e : nt_bounds p (length ideal) z = Raise e -> e <> IndexErr.
  Proof.
    unfold nt_bounds. intros H. apply rseq_err in H as (i & Hi & H). apply in_seq in Hi.
    destruct (np_ecm p i (drop_at i z) (np_x0 p)) as [x|e'] eqn:E; cbn [rbind] in H.
    - exfalso. eapply at_noerr; [|exact H]. rewrite HF. lia.
    - injection H as ->. intros ->. exact (HE _ _ _ E).
  Qed.
  Lemma report_shape L st n l : st + nt_off v < L -> hs (shape L st n l) (nt_report p v ideal nadir) (fun _ => shape L st n l) (NI L st n l).
  Proof.
    intros HL. unfold nt_report. apply hs_get_bind; intros s0 H0; apply (hs_pre _ (shape L st n l)); [intros ? ->; exact H0|].
    replace (ns_step s0) with st by sh.
    apply hs_lift_bind; [intros e s He Hs; split; [exact Hs|]; apply slot_err in He; [exact He|sh]|]. intros z _.
    apply hs_lift_bind; [intros e s He Hs; split; [exact Hs|]; apply bounds_err in He; exact He|]. intros b _.
    eapply (hs_bind _ _ _ (fun _ => shape L st n l)); [apply nput_hs; [intros ? ?; sh|]; intros s l' Hs HS; apply set_nth_length in HS; sh|]. intros [].
    eapply (hs_bind _ _ _ (fun _ => shape L st n l)); [apply nput_hs; [intros ? ?; sh|]; intros s l' Hs HS; apply set_nth_length in HS; sh|]. intros [].
    apply hs_lift_bind; [intros e s He Hs; split; [exact Hs|]; apply slot_err in He; [exact He|sh]|]. intros f _.
    apply hs_lift_bind.
    { intros e s He Hs. split; [exact Hs|]. unfold nt_dist in He.
      destruct (bcast2 nsub z (nt_start v nadir)) eqn:E1; cbn [rbind] in He; [|injection He as ->; apply bcast_err in E1; congruence].
      destruct (bcast2 nsub f (nt_start v nadir)) eqn:E2; cbn [rbind] in He; [|injection He as ->; apply bcast_err in E2; congruence]. discriminate. }
    intros e _.
    eapply (hs_bind _ _ _ (fun _ => shape L st n l)); [apply nput_hs; [intros ? ?; sh|]; intros s l' Hs HS; apply set_nth_length in HS; sh|]. intros [].
    apply hs_ret. auto.
  Qed.
  Lemma smr_shape d L st n l : 1 <= st -> st + nt_off v < L -> weights_safe d ->
    hs (shape L st n l) (nt_solve p v eps ideal nadir d ;;; nt_move ;;; nt_report p v ideal nadir) (fun _ => shape L st n l) (NI L st n l).
  Proof.
    intros H1 H2 HW. eapply hs_bind; [apply solve_shape; [lia|exact HW]|]. intros [].
    eapply hs_bind; [apply move_shape; lia|]. intros []. apply report_shape. exact H2.
  Qed.


  Lemma initial_shape d o m : nd_n d = Some o -> as_int o = Some m -> (1 <= m)%Z -> weights_safe d ->
    hs (fun s => ns_step s = 1) (nt_handle_initial p v eps ideal nadir d) (fun _ => shape (Z.to_nat (m + 2)) 1 m m)
       (fun e s => ns_step s = 1 /\ e <> IndexErr).
  Proof.
    intros Ho Hm Hm1 HW. unfold nt_handle_initial. rewrite Ho. cbn [key]. assert (Hoff : nt_off v <= 1) by (destruct v; cbn; lia).
    apply hs_lift_bind; [discriminate|]. intros o' E. injection E as <-. rewrite Hm.
    apply hs_lift_bind; [discriminate|]. intros m' E. injection E as <-.
    apply (hs_mod_bind _ _ _ (shape (Z.to_nat (m + 2)) 1 m m)).
    { intros s Hs. unfold shape. cbn. rewrite !repeat_length. auto 10. }
    apply hs_get_bind; intros s0 H0; apply (hs_pre _ (shape (Z.to_nat (m + 2)) 1 m m)); [intros ? ->; exact H0|].
    replace (ns_step s0) with 1 by sh.
    apply hs_post with (Q := fun _ => shape (Z.to_nat (m + 2)) 1 m m) (E := NI (Z.to_nat (m + 2)) 1 m m).
    { auto. } { intros e s [Hs He]. split; [sh|exact He]. }
    eapply (hs_bind _ _ _ (fun _ => shape (Z.to_nat (m + 2)) 1 m m)); [apply nput_hs; [intros ? ?; sh|]; intros s l' Hs HS; apply set_nth_length in HS; sh|]. intros [].
    apply hs_lift_bind; [intros e s He Hs; split; [exact Hs|]; unfold key in He; destruct (nd_method d); congruence|]. intros me Hme.
    apply hs_lift_bind; [intros e s He Hs; split; [exact Hs|]; unfold key in He; destruct (nd_info d); congruence|]. intros i Hi.
    apply hs_lift_bind.
    { intros e s He Hs. split; [exact Hs|]. intros ->. revert He. apply HW; unfold key in *; [destruct (nd_method d)|destruct (nd_info d)]; congruence. }
    intros w Hw.
    eapply (hs_bind _ _ _ (fun _ => shape (Z.to_nat (m + 2)) 1 m m)); [apply nput_hs; [intros ? ?; sh|]; intros s l' Hs HS; apply set_nth_length in HS; sh|]. intros [].
    eapply (hs_bind _ _ _ (fun _ => shape (Z.to_nat (m + 2)) 1 m m)); [apply nput_hs; [intros ? ?; sh|]; intros s l' Hs HS; apply set_nth_length in HS; sh|]. intros [].
    apply smr_shape; [lia|lia|exact HW].
  Qed.

  (** The invariant: room for all the remaining steps. *)
  Definition room (s : nt_state N) : Prop :=
    exists L st n l, shape L st n l s /\ 1 <= st /\ (n + 2 <= Z.of_nat L)%Z /\ (Z.of_nat st + Z.max l 0 + 1 <= Z.of_nat L)%Z.
  (** V2 overwrites the number of remaining iterations: safe on the first step or
      if it does not grow. *)
  Definition change_ok (s : nt_state N) (d : nt_dict N) : Prop :=
    match v with
    | NV1 => True
    | NV2 _ _ => forall o m, nd_n d = Some o -> as_int o = Some m -> ns_step s = 1 \/ (m <= ns_left s)%Z
    end.
  Lemma change_hs d s0 : room s0 -> change_ok s0 d -> (forall o, nd_n d = Some o -> exists m, as_int o = Some m /\ (1 <= m)%Z) ->
    hs (fun s => s = s0) (nt_change v d) (fun _ => room) (fun e s => False).
  Proof.
    intros (L & st & n & l & HS & H1 & HL & HR) HC HD. unfold change_ok in HC. unfold nt_change. destruct (nd_n d) as [o|] eqn:Eo; [|apply hs_ret; intros s ->; exists L, st, n, l; auto].
    destruct (HD _ eq_refl) as (m & Em & Hm). rewrite Em. apply hs_lift_bind; [discriminate|]. intros m' E. injection E as <-.
    apply hs_mod. intros s ->. destruct s0 as [st0 n0 l0 zs xs fs ds lb ub]. unfold shape in HS. cbn in HS.
    destruct HS as (-> & -> & -> & ? & ? & ? & ? & ? & ?). unfold nt_extend. cbn [ns_n ns_step ns_left ns_zs ns_xs ns_fs ns_ds ns_lb ns_ub].
    destruct (Z.ltb_spec n m) as [G|G]; unfold nt_set_left, room, shape, ext; destruct v as [|start fuel];
      cbn [ns_n ns_step ns_left ns_zs ns_xs ns_fs ns_ds ns_lb ns_ub].
    - exists (L + Z.to_nat (m - n)), st, m, (l + m - n)%Z. rewrite !app_length, !repeat_length. repeat split; try lia.
    - exists (L + Z.to_nat (m - n)), st, n, m. rewrite !app_length, !repeat_length. repeat split; try lia.
      destruct (HC o m eq_refl Em) as [E|E]; cbn in E; lia.
    - exists L, st, m, (l + m - n)%Z. repeat split; try lia.
    - exists L, st, n, m. repeat split; try lia. destruct (HC o m eq_refl Em) as [E|E]; cbn in E; lia.
  Qed.

  Lemma handle_shape d s0 : room s0 -> change_ok s0 d -> (forall o, nd_n d = Some o -> exists m, as_int o = Some m /\ (1 <= m)%Z) -> weights_safe d ->
    hs (fun s => s = s0) (nt_handle p v eps ideal nadir d) (fun _ => room) (fun e s => room s /\ e <> IndexErr).
  Proof.
    intros HR HC HD HW. unfold nt_handle. assert (Hoff : nt_off v <= 1) by (destruct v; cbn; lia).
    eapply hs_bind; [eapply hs_post; [| |apply (change_hs d s0 HR HC HD)]; [intros a s Hs; exact Hs|intros e s []]|]. intros [].
    apply hs_get_bind. intros s1 (L & st & n & l & HS & H1 & HL & HR1). apply (hs_pre _ (shape L st n l)); [intros ? ->; exact HS|].
    assert (Es : ns_step s1 = st) by sh. assert (El : ns_left s1 = l) by sh. rewrite Es, El.
    destruct (Z.leb_spec l 1) as [G|G].
    - apply (hs_mod_bind _ _ _ (shape L st n 0)); [intros s Hs; unfold shape, u_left in *; cbn in *; intuition|].
      apply hs_lift_bind; [intros e s He Hs; exfalso; eapply at_noerr; [|exact He]; sh|]. intros x _.
      apply hs_lift_bind; [intros e s He Hs; exfalso; eapply at_noerr; [|exact He]; sh|]. intros f _.
      apply hs_ret. intros s Hs. exists L, st, n, 0%Z. split; [exact Hs|]. lia.
    - assert (R1 : forall s, shape L st n l s -> room s) by (intros s Hs; exists L, st, n, l; split; [exact Hs|lia]).
      assert (R2 : forall s, shape L (S st) n (l - 1) s -> room s) by (intros s Hs; exists L, (S st), n, (l - 1)%Z; split; [exact Hs|lia]).
      apply hs_lift_bind; [intros e s He Hs; split; [auto|]; unfold key in He; destruct (nd_back d); congruence|]. intros b _.
      destruct (truthy b); cbn [negb].
      + apply hs_lift_bind; [intros e s He Hs; split; [auto|]; unfold key in He; destruct (nd_short d); congruence|]. intros h _.
        destruct (truthy h).
        * eapply (hs_bind _ _ _ (fun _ => shape L st n l)).
          { unfold nt_half. apply hs_get_bind; intros s2 H2; apply (hs_pre _ (shape L st n l)); [intros ? ->; exact H2|]. replace (ns_step s2) with st by sh.
            apply hs_lift_bind; [intros e s He Hs; split; [auto|]; apply slot_err in He; [exact He|sh]|]. intros z _.
            apply hs_lift_bind; [intros e s He Hs; split; [auto|]; apply slot_err in He; [exact He|sh]|]. intros z0 _.
            apply hs_lift_bind; [intros e s He Hs; split; [auto|]; apply bcast_err in He; congruence|]. intros z' _.
            eapply (hs_bind _ _ _ (fun _ => shape L st n l)); [apply nput_hs; [intros ? ?; sh|]; intros s l' Hs2 HS2; apply set_nth_length in HS2; sh|]. intros [].
            eapply hs_post; [| |apply report_shape; lia]; [intros a s Hs; exact Hs|intros e s [Hs He]; auto]. }
          intros q. apply hs_ret. auto.
        * apply hs_lift_bind; [intros e s He Hs; split; [auto|]; unfold key in He; destruct (nd_prev d); congruence|]. intros u _.
          destruct (truthy u); [apply hs_ret; auto|].
          eapply hs_bind; [eapply hs_post; [| |apply (solve_shape d L st n l); [lia|exact HW]]; [intros a s Hs; exact Hs|intros e s [Hs He]; auto]|]. intros [].
          eapply hs_bind; [eapply hs_post; [| |apply (move_shape L st n l); lia]; [intros a s Hs; exact Hs|intros e s [Hs He]; auto]|]. intros [].
          eapply hs_bind; [eapply hs_post; [| |apply (report_shape L st n l); lia]; [intros a s Hs; exact Hs|intros e s [Hs He]; auto]|]. intros q. apply hs_ret. auto.
      + eapply (hs_bind _ _ _ (fun _ => shape L (S st) n (l - 1))).
        { unfold nt_forward. apply (hs_mod_bind _ _ _ (shape L (S st) n (l - 1))); [intros s Hs; unfold shape, u_next in *; cbn in *; intuition; congruence|].
          apply hs_lift_bind; [intros e s He Hs; split; [auto|]; unfold key in He; destruct (nd_prev d); congruence|]. intros u _.
          eapply (hs_bind _ _ _ (fun _ => shape L (S st) n (l - 1))).
          { destruct (truthy u).
            - apply hs_get_bind; intros s2 H2; apply (hs_pre _ (shape L (S st) n (l - 1))); [intros ? ->; exact H2|]. replace (ns_step s2) with (S st) by sh.
              apply hs_lift_bind; [intros e s He Hs; exfalso; eapply at_noerr; [|exact He]; sh|]. intros x _.
              eapply (hs_bind _ _ _ (fun _ => shape L (S st) n (l - 1))); [apply nput_hs; [intros ? ?; sh|]; intros s l' Hs2 HS2; apply set_nth_length in HS2; sh|]. intros [].
              apply hs_lift_bind; [intros e s He Hs; exfalso; eapply at_noerr; [|exact He]; sh|]. intros f _.
              apply nput_hs; [intros ? ?; sh|]; intros s l' Hs2 HS2; apply set_nth_length in HS2; sh.
            - eapply hs_post; [| |apply (solve_shape d L (S st) n (l - 1)); [lia|exact HW]]; [intros a s Hs; exact Hs|intros e s [Hs He]; auto]. }
          intros []. eapply hs_bind; [eapply hs_post; [| |apply (move_shape L (S st) n (l - 1)); lia]; [intros a s Hs; exact Hs|intros e s [Hs He]; auto]|]. intros [].
          eapply hs_post; [| |apply (report_shape L (S st) n (l - 1)); lia]; [intros a s Hs; exact Hs|intros e s [Hs He]; auto]. }
        intros q. apply hs_ret. auto.
  Qed.
End Shape.
