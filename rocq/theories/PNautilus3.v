(** * NAUTILUS: what a call does to the current and the previous iteration point,
    the current solution and the counters. *)
From Coq Require Import ZArith List Bool Lia.
From Verif Require Import Num Py Np Spec NpFacts Hoare PRpm MNautilus SNautilus PNautilus PNautilus2.
Import ListNotations.

(** The part of the state that later calls depend on. *)
Record vw (N : NumOps) := MkVW { vst : nat; vn : Z; vl : Z; vz0 : list N; vz : list N; vx : list N; vf : list N }.
Arguments MkVW {_}. Arguments vst {_}. Arguments vn {_}. Arguments vl {_}. Arguments vz0 {_}. Arguments vz {_}. Arguments vx {_}. Arguments vf {_}.

Section View.
  Context {N : NumOps} (p : nt_problem N) (v : nt_variant N) (eps : N) (k : nat) (ideal nadir : list N).
  Context (WF : nt_wf k p v ideal nadir).
  Notation vec := (list N).
  Notation ut := (nt_utopian ideal eps).

  Definition pre1 L st n l z0 (s : nt_state N) : Prop := shape L st n l s /\ nth_error (ns_zs s) (st - 1) = Some (Some z0).
  Definition pre2 L st n l z0 x f (s : nt_state N) : Prop :=
    pre1 L st n l z0 s /\ nth_error (ns_xs s) st = Some (Some x) /\ nth_error (ns_fs s) st = Some (Some f).
  Definition view L (w : vw N) (s : nt_state N) : Prop :=
    pre2 L (vst w) (vn w) (vl w) (vz0 w) (vx w) (vf w) s /\ nth_error (ns_zs s) (vst w) = Some (Some (vz w)).

  (** Why a call may fail. *)
  Inductive fault (d : nt_dict N) : exn -> Prop :=
  | fault_key : nd_method d = None \/ nd_info d = None -> fault d KeyErr
  | fault_weights m i e : nd_method d = Some m -> nd_info d = Some i -> nt_weights v m i nadir ut = Raise e -> fault d e
  | fault_min w q e : np_min p w nadir ut q (np_x0 p) = Raise e -> fault d e.
  Definition ecm_fault (e : exn) : Prop := exists i z, np_ecm p i z (np_x0 p) = Raise e.
  (** The solution found for the preferences of [d] from the point [q]. *)
  Definition chosen (d : nt_dict N) (q x : vec) : Prop :=
    exists m i w, nd_method d = Some m /\ nd_info d = Some i /\ nt_weights v m i nadir ut = Ok w /\ np_min p w nadir ut q (np_x0 p) = Ok x.
  (** The request shown for the iteration point [z] and the solution [f]. *)
  Definition shown (z f : vec) (q : nt_request N) : Prop :=
    exists b e, q = NReq z b z e /\ nt_bounds p (length ideal) z = Ok b /\ nt_dist z (nt_start v nadir) f = Ok e.

  Ltac sh := unfold view, pre2, pre1, shape in *; cbn [vst vn vl vz0 vz vx vf u_zs u_xs u_fs u_ds u_lb u_ub ns_step ns_n ns_left ns_zs ns_xs ns_fs ns_ds ns_lb ns_ub] in *;
             intuition (try lia; try congruence).
  Lemma slot_some {A} (l : list (option A)) i a : nth_error l i = Some (Some a) -> slot l i = Ok a.
  Proof. unfold slot, at_. intros ->. reflexivity. Qed.

  Lemma solve_view d L st n l z0 : 1 <= st < L ->
    hs (pre1 L st n l z0) (nt_solve p v eps ideal nadir d)
       (fun _ s => exists x, pre2 L st n l z0 x (np_eval p x) s /\ chosen d z0 x) (fun e s => fault d e).
  Proof.
    intros HL. unfold nt_solve.
    apply hs_lift_bind; [intros e s He Hs; unfold key in He; destruct (nd_method d) eqn:E; [discriminate|injection He as <-; apply fault_key; auto]|]. intros m Hm.
    apply hs_lift_bind; [intros e s He Hs; unfold key in He; destruct (nd_info d) eqn:E; [discriminate|injection He as <-; apply fault_key; auto]|]. intros i Hi.
    assert (Em : nd_method d = Some m) by (unfold key in Hm; destruct (nd_method d); congruence).
    assert (Ei : nd_info d = Some i) by (unfold key in Hi; destruct (nd_info d); congruence).
    apply hs_lift_bind; [intros e s He Hs; exact (fault_weights d m i e Em Ei He)|]. intros w Hw.
    apply hs_get_bind; intros s0 H0; apply (hs_pre _ (pre1 L st n l z0)); [intros ? ->; exact H0|]. replace (ns_step s0) with st by sh.
    rewrite (slot_some _ _ z0) by apply H0. apply hs_lift_bind; [discriminate|]. intros q Eq. injection Eq as <-.
    apply hs_lift_bind; [intros e s He Hs; exact (fault_min d _ _ _ He)|]. intros x Hx.
    eapply (hs_bind _ _ _ (fun _ s => pre1 L st n l z0 s /\ nth_error (ns_xs s) st = Some (Some x))).
    - apply nput_hs; [intros ? ?; sh|]. intros s l' Hs HS. pose proof (set_nth_get_same _ _ _ _ HS). apply set_nth_length in HS. sh.
    - intros []. apply nput_hs; [intros ? ?; sh|]. intros s l' Hs HS. exists x. pose proof (set_nth_get_same _ _ _ _ HS). apply set_nth_length in HS.
      split; [sh|]. exists m, i, w. auto.
  Qed.
  Lemma point_ok l (z f : vec) : length z = k -> length f = k -> l <> 0%Z -> exists z', nt_point l z f = Ok z' /\ length z' = k.
  Proof.
    intros Hz Hf Hl. unfold nt_point. destruct (Z.eqb_spec l 0); [contradiction|]. unfold vscale.
    destruct (bc_len nadd (map (nmul (ndiv (nofZ (l - 1)) (nofZ l))) z) (map (nmul (ndiv (nofZ 1) (nofZ l))) f)) as [E1 E2]; [rewrite !map_length; congruence|].
    rewrite E1. eexists. split; [reflexivity|]. rewrite E2, map_length. exact Hz.
  Qed.
  Lemma move_view L st n l (z0 x f : vec) : 1 <= st < L -> length z0 = k -> length f = k -> l <> 0%Z ->
    exists z', nt_point l z0 f = Ok z' /\ length z' = k /\
      hs (pre2 L st n l z0 x f) nt_move (fun _ => view L (MkVW st n l z0 z' x f)) (fun e s => False).
  Proof.
    intros HL Hz Hf Hl. destruct (point_ok l z0 f Hz Hf Hl) as (z' & E & Hz'). exists z'. split; [exact E|]. split; [exact Hz'|].
    unfold nt_move. apply hs_get_bind; intros s0 H0; apply (hs_pre _ (pre2 L st n l z0 x f)); [intros ? ->; exact H0|].
    replace (ns_step s0) with st by sh. replace (ns_left s0) with l by sh.
    rewrite (slot_some _ _ z0) by apply H0. apply hs_lift_bind; [discriminate|]. intros q Eq. injection Eq as <-.
    rewrite (slot_some _ _ f) by apply H0. apply hs_lift_bind; [discriminate|]. intros q Eq. injection Eq as <-.
    rewrite E. apply hs_lift_bind; [discriminate|]. intros q Eq. injection Eq as <-.
    apply nput_hs; [intros ? ?; sh|]. intros s l' Hs HS. pose proof (set_nth_get_same _ _ _ _ HS) as G1.
    assert (G2 : nth_error l' (st - 1) = nth_error (ns_zs s) (st - 1)) by (eapply set_nth_get_other; [exact HS|lia]). apply set_nth_length in HS. sh.
  Qed.
  Lemma dist_ok (z f : vec) : length z = k -> length f = k -> exists e, nt_dist z (nt_start v nadir) f = Ok e.
  Proof.
    destruct WF as (_ & _ & _ & W & _). intros Hz Hf. unfold nt_dist. rewrite !bcast2_eq by congruence. cbn [rbind]. eauto.
  Qed.
  Lemma report_view L w : 1 <= vst w -> vst w + nt_off v < L -> length (vz w) = k -> length (vf w) = k ->
    hs (view L w) (nt_report p v ideal nadir) (fun q s => view L w s /\ shown (vz w) (vf w) q) (fun e s => ecm_fault e).
  Proof.
    intros H1 HL Hz Hf. unfold nt_report. apply hs_get_bind; intros s0 H0; apply (hs_pre _ (view L w)); [intros ? ->; exact H0|].
    destruct w as [st n l z0 z x f]. cbn [vst vn vl vz0 vz vx vf] in *. replace (ns_step s0) with st by sh.
    rewrite (slot_some _ _ z) by apply H0. apply hs_lift_bind; [discriminate|]. intros q Eq. injection Eq as <-.
    apply hs_lift_bind.
    { intros e s He Hs. unfold nt_bounds in He. apply rseq_err in He as (i & Hi & He). apply in_seq in Hi.
      destruct (np_ecm p i (drop_at i z) (np_x0 p)) as [y|e'] eqn:E; cbn [rbind] in He; [|injection He as ->; exists i, (drop_at i z); exact E].
      exfalso. eapply at_noerr; [|exact He]. destruct WF as (_ & W1 & _ & _ & W4). rewrite W4. lia. }
    intros b Eb.
    eapply (hs_bind _ _ _ (fun _ => view L (MkVW st n l z0 z x f))); [apply nput_hs; [intros ? ?; sh|]; intros s l' Hs HS; apply set_nth_length in HS; sh|]. intros [].
    eapply (hs_bind _ _ _ (fun _ => view L (MkVW st n l z0 z x f))); [apply nput_hs; [intros ? ?; sh|]; intros s l' Hs HS; apply set_nth_length in HS; sh|]. intros [].
    rewrite (slot_some _ _ f) by apply H0. apply hs_lift_bind; [discriminate|]. intros q Eq. injection Eq as <-.
    destruct (dist_ok z f Hz Hf) as (e & Ee). rewrite Ee. apply hs_lift_bind; [discriminate|]. intros q Eq. injection Eq as <-.
    eapply (hs_bind _ _ _ (fun _ => view L (MkVW st n l z0 z x f))); [apply nput_hs; [intros ? ?; sh|]; intros s l' Hs HS; apply set_nth_length in HS; sh|]. intros [].
    apply hs_ret. intros s Hs. split; [exact Hs|]. exists b, e. auto.
  Qed.
  Lemma smr_view d L st n l z0 : 1 <= st -> st + nt_off v < L -> length z0 = k -> l <> 0%Z ->
    hs (pre1 L st n l z0) (nt_solve p v eps ideal nadir d ;;; nt_move ;;; nt_report p v ideal nadir)
      (fun q s => exists x z', chosen d z0 x /\ nt_point l z0 (np_eval p x) = Ok z' /\ length z' = k /\
                    view L (MkVW st n l z0 z' x (np_eval p x)) s /\ shown z' (np_eval p x) q)
      (fun e s => fault d e \/ ecm_fault e).
  Proof.
    intros H1 HL Hz Hl s Hs. unfold sbind. pose proof (solve_view d L st n l z0 ltac:(lia) s Hs) as G.
    destruct (nt_solve p v eps ideal nadir d s) as [s1 [[]|e]]; [|left; exact G]. destruct G as (x & G1 & G2).
    assert (Hf : length (np_eval p x) = k) by apply WF.
    destruct (move_view L st n l z0 x (np_eval p x) ltac:(lia) Hz Hf Hl) as (z' & E & Hz' & M). specialize (M s1 G1).
    destruct (nt_move s1) as [s2 [[]|e]]; [|destruct M].
    pose proof (report_view L (MkVW st n l z0 z' x (np_eval p x)) H1 HL Hz' Hf s2 M) as R.
    destruct (nt_report p v ideal nadir s2) as [s3 [q|e]]; [|right; exact R]. exists x, z'. exact (conj G2 (conj E (conj Hz' R))).
  Qed.

  Lemma initial_view d o m : nd_n d = Some o -> as_int o = Some m -> (1 <= m)%Z ->
    hs (fun s => ns_step s = 1) (nt_handle_initial p v eps ideal nadir d)
      (fun q s => exists x z', chosen d (nt_start v nadir) x /\ nt_point m (nt_start v nadir) (np_eval p x) = Ok z' /\ length z' = k /\
                    view (Z.to_nat (m + 2)) (MkVW 1 m m (nt_start v nadir) z' x (np_eval p x)) s /\ shown z' (np_eval p x) q)
      (fun e s => fault d e \/ ecm_fault e).
  Proof.
    intros Ho Hm Hm1. unfold nt_handle_initial. rewrite Ho. cbn [key]. assert (Hoff : nt_off v <= 1) by (destruct v; cbn; lia).
    apply hs_lift_bind; [discriminate|]. intros o' E. injection E as <-. rewrite Hm.
    apply hs_lift_bind; [discriminate|]. intros m' E. injection E as <-.
    apply (hs_mod_bind _ _ _ (shape (Z.to_nat (m + 2)) 1 m m)); [intros s Hs; unfold shape; cbn; rewrite !repeat_length; auto 10|].
    apply hs_get_bind; intros s0 H0; apply (hs_pre _ (shape (Z.to_nat (m + 2)) 1 m m)); [intros ? ->; exact H0|]. replace (ns_step s0) with 1 by sh.
    set (P := pre1 (Z.to_nat (m + 2)) 1 m m (nt_start v nadir)).
    eapply (hs_bind _ _ _ (fun _ => P)); [apply nput_hs; [intros ? ?; sh|]; intros s l' Hs HS; subst P; pose proof (set_nth_get_same _ _ _ _ HS); apply set_nth_length in HS; sh|]. intros [].
    apply hs_lift_bind; [intros e s He Hs; unfold key in He; destruct (nd_method d) eqn:E; [discriminate|injection He as <-; left; apply fault_key; auto]|]. intros me Hme.
    apply hs_lift_bind; [intros e s He Hs; unfold key in He; destruct (nd_info d) eqn:E; [discriminate|injection He as <-; left; apply fault_key; auto]|]. intros i Hi.
    assert (Em : nd_method d = Some me) by (unfold key in Hme; destruct (nd_method d); congruence).
    assert (Ei : nd_info d = Some i) by (unfold key in Hi; destruct (nd_info d); congruence).
    apply hs_lift_bind; [intros e s He Hs; left; exact (fault_weights d me i e Em Ei He)|]. intros w Hw.
    eapply (hs_bind _ _ _ (fun _ => P)); [apply nput_hs; [intros ? ?; subst P; sh|]; intros s l' Hs HS; subst P; apply set_nth_length in HS; sh|]. intros [].
    eapply (hs_bind _ _ _ (fun _ => P)); [apply nput_hs; [intros ? ?; subst P; sh|]; intros s l' Hs HS; subst P; apply set_nth_length in HS; sh|]. intros [].
    subst P. apply smr_view; [lia|lia| |lia]. destruct WF as (_ & _ & _ & W & _). exact W.
  Qed.

  (** ** handle_request on the view *)
  (** The counters after the answer's own change of the number of iterations. *)
  Definition counters (d : nt_dict N) (n l : Z) : Z * Z :=
    match nd_n d with
    | None => (n, l)
    | Some o => match as_int o with
                | None => (n, l)
                | Some m => match v with NV1 => (m, l + m - n)%Z | NV2 _ _ => (n, m) end
                end
    end.
  Inductive vstep (d : nt_dict N) (w : vw N) : option (nt_request N) -> vw N -> Prop :=
  | vs_stop n' l' : counters d (vn w) (vl w) = (n', l') -> (l' <= 1)%Z ->
      vstep d w (Some (NStop (Some (vx w)) (Some (vf w)))) (MkVW (vst w) n' 0 (vz0 w) (vz w) (vx w) (vf w))
  | vs_keep n' l' z' q : counters d (vn w) (vl w) = (n', l') -> (1 < l')%Z -> says (nd_back d) false -> says (nd_prev d) true ->
      nt_point (l' - 1) (vz w) (vf w) = Ok z' -> shown z' (vf w) q ->
      vstep d w (Some q) (MkVW (S (vst w)) n' (l' - 1) (vz w) z' (vx w) (vf w))
  | vs_new n' l' x z' q : counters d (vn w) (vl w) = (n', l') -> (1 < l')%Z -> says (nd_back d) false -> says (nd_prev d) false ->
      chosen d (vz w) x -> nt_point (l' - 1) (vz w) (np_eval p x) = Ok z' -> shown z' (np_eval p x) q ->
      vstep d w (Some q) (MkVW (S (vst w)) n' (l' - 1) (vz w) z' x (np_eval p x))
  | vs_half n' l' z' q : counters d (vn w) (vl w) = (n', l') -> (1 < l')%Z -> says (nd_back d) true -> says (nd_short d) true ->
      bcast2 nadd (vscale (ndiv (nofZ 1) (nofZ 2)) (vz w)) (vscale (ndiv (nofZ 1) (nofZ 2)) (vz0 w)) = Ok z' -> shown z' (vf w) q ->
      vstep d w (Some q) (MkVW (vst w) n' l' (vz0 w) z' (vx w) (vf w))
  | vs_none n' l' : counters d (vn w) (vl w) = (n', l') -> (1 < l')%Z -> says (nd_back d) true -> says (nd_short d) false -> says (nd_prev d) true ->
      vstep d w None (MkVW (vst w) n' l' (vz0 w) (vz w) (vx w) (vf w))
  | vs_back n' l' x z' q : counters d (vn w) (vl w) = (n', l') -> (1 < l')%Z -> says (nd_back d) true -> says (nd_short d) false -> says (nd_prev d) false ->
      chosen d (vz0 w) x -> nt_point l' (vz0 w) (np_eval p x) = Ok z' -> shown z' (np_eval p x) q ->
      vstep d w (Some q) (MkVW (vst w) n' l' (vz0 w) z' x (np_eval p x)).
  (** Enough room for the remaining steps, and vectors of the right length. *)
  Definition vok (L : nat) (w : vw N) : Prop :=
    1 <= vst w /\ (vn w + 2 <= Z.of_nat L)%Z /\ (Z.of_nat (vst w) + Z.max (vl w) 0 + 1 <= Z.of_nat L)%Z /\
    length (vz0 w) = k /\ length (vz w) = k /\ length (vf w) = k.
  Definition vchange_ok (d : nt_dict N) (w : vw N) : Prop :=
    match v with
    | NV1 => True
    | NV2 _ _ => forall o m, nd_n d = Some o -> as_int o = Some m -> vst w = 1 \/ (m <= vl w)%Z
    end.

  Lemma change_view d L w : vok L w -> vchange_ok d w -> (forall o, nd_n d = Some o -> exists m, as_int o = Some m /\ (1 <= m)%Z) ->
    hs (view L w) (nt_change v d)
      (fun _ s => exists L' n' l', counters d (vn w) (vl w) = (n', l') /\ view L' (MkVW (vst w) n' l' (vz0 w) (vz w) (vx w) (vf w)) s /\
                    vok L' (MkVW (vst w) n' l' (vz0 w) (vz w) (vx w) (vf w)))
      (fun e s => False).
  Proof.
    intros HO HC HD. unfold nt_change, counters, vchange_ok in *. destruct w as [st n l z0 z x f]. unfold vok in *. cbn [vst vn vl vz0 vz vx vf] in *.
    destruct (nd_n d) as [o|] eqn:Eo; [|apply hs_ret; intros s Hs; exists L, n, l; auto].
    destruct (HD _ eq_refl) as (m & Em & Hm). rewrite Em. apply hs_lift_bind; [discriminate|]. intros m' E. injection E as <-.
    apply hs_mod. intros s Hs. destruct s as [st0 n0 l0 zs xs fs ds lb ub]. unfold view, pre2, pre1, shape in Hs. cbn in Hs.
    destruct Hs as ((((-> & -> & -> & L1 & L2 & L3 & L4 & L5 & L6) & S1) & S2 & S3) & S4).
    unfold nt_extend. cbn [ns_n ns_step ns_left ns_zs ns_xs ns_fs ns_ds ns_lb ns_ub].
    assert (A : forall {A} (l : list (option A)) j e y, nth_error l j = Some (Some y) -> nth_error (ext e l) j = Some (Some y)).
    { clear. intros A l j e y H. unfold ext. rewrite nth_error_app1; [exact H|]. apply nth_error_Some. congruence. }
    destruct (Z.ltb_spec n m) as [G|G]; unfold nt_set_left, view, pre2, pre1, shape; destruct v as [|start fuel];
      cbn [ns_n ns_step ns_left ns_zs ns_xs ns_fs ns_ds ns_lb ns_ub].
    - exists (L + Z.to_nat (m - n)), m, (l + m - n)%Z. split; [reflexivity|]. cbn [vst vn vl vz0 vz vx vf ns_zs ns_xs ns_fs]. rewrite !(A _ _ _ _ _ S1), !(A _ _ _ _ _ S2), !(A _ _ _ _ _ S3), !(A _ _ _ _ _ S4).
      unfold ext. rewrite !app_length, !repeat_length. repeat split; try lia; try (f_equal; f_equal; lia).
    - exists (L + Z.to_nat (m - n)), n, m. split; [reflexivity|]. cbn [vst vn vl vz0 vz vx vf ns_zs ns_xs ns_fs]. rewrite !(A _ _ _ _ _ S1), !(A _ _ _ _ _ S2), !(A _ _ _ _ _ S3), !(A _ _ _ _ _ S4).
      unfold ext. rewrite !app_length, !repeat_length. repeat split; try lia; try (f_equal; f_equal; lia).
      destruct (HC o m eq_refl Em) as [E|E]; lia.
    - exists L, m, (l + m - n)%Z. split; [reflexivity|]. cbn [vst vn vl vz0 vz vx vf ns_zs ns_xs ns_fs]. repeat split; auto; lia.
    - exists L, n, m. split; [reflexivity|]. cbn [vst vn vl vz0 vz vx vf ns_zs ns_xs ns_fs]. repeat split; auto; try lia. destruct (HC o m eq_refl Em) as [E|E]; lia.
  Qed.
  Lemma half_ok (z z0 : vec) : length z = k -> length z0 = k ->
    exists z', bcast2 nadd (vscale (ndiv (nofZ 1) (nofZ 2)) z) (vscale (ndiv (nofZ 1) (nofZ 2)) z0) = Ok z' /\ length z' = k.
  Proof.
    intros H1 H2. unfold vscale.
    destruct (bc_len nadd (map (nmul (ndiv (nofZ 1) (nofZ 2))) z) (map (nmul (ndiv (nofZ 1) (nofZ 2))) z0)) as [E1 E2]; [rewrite !map_length; congruence|].
    rewrite E1. eexists. split; [reflexivity|]. rewrite E2, map_length. exact H1.
  Qed.

  (** The forward step with the same and with new preferences. *)
  Lemma forward_keep d L w u : nd_prev d = Some u -> truthy u = true -> 1 <= vst w -> S (vst w) + 1 < L -> length (vz w) = k -> length (vf w) = k -> vl w <> 1%Z ->
    exists z', nt_point (vl w - 1) (vz w) (vf w) = Ok z' /\ length z' = k /\
    hs (view L w) (nt_forward p v eps ideal nadir d)
       (fun q s => view L (MkVW (S (vst w)) (vn w) (vl w - 1) (vz w) z' (vx w) (vf w)) s /\ shown z' (vf w) q) (fun e s => ecm_fault e).
  Proof.
    intros Eu Tu H1 HL Hz Hf Hl. assert (Hoff : nt_off v <= 1) by (destruct v; cbn; lia). destruct w as [st n l z0 z x f]. cbn [vst vn vl vz0 vz vx vf] in *.
    destruct (move_view L (S st) n (l - 1) z x f ltac:(lia) Hz Hf ltac:(lia)) as (z' & Ez & Hz' & M).
    exists z'. split; [exact Ez|]. split; [exact Hz'|]. unfold nt_forward.
    set (P := fun s => shape L (S st) n (l - 1) s /\ nth_error (ns_zs s) st = Some (Some z) /\ nth_error (ns_xs s) st = Some (Some x) /\ nth_error (ns_fs s) st = Some (Some f)).
    apply (hs_mod_bind _ _ _ P).
    { intros s Hs. subst P. unfold u_next. sh. }
    rewrite Eu. cbn [key]. apply hs_lift_bind; [discriminate|]. intros u' E. injection E as <-. rewrite Tu.
    eapply (hs_bind _ _ _ (fun _ => pre2 L (S st) n (l - 1) z x f)).
    - apply hs_get_bind; intros s2 H2. apply (hs_pre _ P); [intros ? ->; exact H2|]. subst P. cbv beta in *. replace (ns_step s2) with (S st) by sh. replace (S st - 1) with st by lia.
      unfold at_. destruct H2 as (H2 & H3 & H4 & H5). rewrite H4, H5. apply hs_lift_bind; [discriminate|]. intros y E. injection E as <-.
      eapply (hs_bind _ _ _ (fun _ s => pre1 L (S st) n (l - 1) z s /\ nth_error (ns_xs s) (S st) = Some (Some x))).
      + apply nput_hs; [intros ? ?; sh|]. intros s l2 Hs HS. pose proof (set_nth_get_same _ _ _ _ HS) as G1. apply set_nth_length in HS. unfold pre1. replace (S st - 1) with st by lia. sh.
      + intros []. apply hs_lift_bind; [discriminate|]. intros y E. injection E as <-.
        apply nput_hs; [intros ? ?; sh|]. intros s l2 Hs HS. pose proof (set_nth_get_same _ _ _ _ HS) as G1. apply set_nth_length in HS. sh.
    - intros []. eapply hs_bind; [eapply hs_post; [| |exact M]; [intros a s Hs; exact Hs|intros e s []]|]. intros [].
      apply report_view; cbn [vst vn vl vz0 vz vx vf]; auto; lia.
  Qed.
  Lemma forward_new d L w u : nd_prev d = Some u -> truthy u = false -> 1 <= vst w -> S (vst w) + 1 < L -> length (vz w) = k -> vl w <> 1%Z ->
    hs (view L w) (nt_forward p v eps ideal nadir d)
       (fun q s => exists x z', chosen d (vz w) x /\ nt_point (vl w - 1) (vz w) (np_eval p x) = Ok z' /\ length z' = k /\
                    view L (MkVW (S (vst w)) (vn w) (vl w - 1) (vz w) z' x (np_eval p x)) s /\ shown z' (np_eval p x) q) (fun e s => fault d e \/ ecm_fault e).
  Proof.
    intros Eu Tu H1 HL Hz Hl. assert (Hoff : nt_off v <= 1) by (destruct v; cbn; lia). destruct w as [st n l z0 z x f]. cbn [vst vn vl vz0 vz vx vf] in *.
    unfold nt_forward. apply (hs_mod_bind _ _ _ (pre1 L (S st) n (l - 1) z)).
    { intros s Hs. unfold u_next, pre1. replace (S st - 1) with st by lia. sh. }
    rewrite Eu. cbn [key]. apply hs_lift_bind; [discriminate|]. intros u' E. injection E as <-. rewrite Tu. apply smr_view; [lia|lia|exact Hz|lia].
  Qed.

  (** A call of iterate on an answered request, from a state with a view. *)
  Lemma handle_view d L w b u : vok L w -> vchange_ok d w -> (forall o, nd_n d = Some o -> exists m, as_int o = Some m /\ (1 <= m)%Z) ->
    nd_back d = Some b -> nd_prev d = Some u ->
    hs (view L w) (nt_handle p v eps ideal nadir d)
       (fun r s => exists L' w', vstep d w r w' /\ view L' w' s /\ vok L' w')
       (fun e s => ecm_fault e \/ (truthy u = false /\ fault d e) \/ (nd_short d = None /\ truthy b = true)).
  Proof.
    intros HO HC HD Eb Eu. unfold nt_handle. assert (Hoff : nt_off v <= 1) by (destruct v; cbn; lia).
    eapply hs_bind; [eapply hs_post; [| |apply (change_view d L w HO HC HD)]; [intros a s Hs; exact Hs|intros e s []]|]. intros [].
    apply hs_get_bind. intros s1 (L' & n' & l' & HCt & HV & HO'). set (w1 := MkVW (vst w) n' l' (vz0 w) (vz w) (vx w) (vf w)) in *.
    apply (hs_pre _ (view L' w1)); [intros ? ->; exact HV|].
    assert (Es : ns_step s1 = vst w) by sh. assert (El : ns_left s1 = l') by sh. rewrite Es, El.
    assert (S2 : nth_error (ns_xs s1) (vst w) = Some (Some (vx w))) by apply HV. assert (S3 : nth_error (ns_fs s1) (vst w) = Some (Some (vf w))) by apply HV.
    destruct HO' as (O1 & O2 & O3 & O4 & O5 & O6). cbn [w1 vst vn vl vz0 vz vx vf] in O1, O2, O3, O4, O5, O6.
    destruct (Z.leb_spec l' 1) as [G|G].
    - apply (hs_mod_bind _ _ _ (view L' (MkVW (vst w) n' 0 (vz0 w) (vz w) (vx w) (vf w)))); [intros s Hs; subst w1; unfold u_left; sh|].
      unfold at_. rewrite S2, S3. apply hs_lift_bind; [discriminate|]. intros x E. injection E as <-. apply hs_lift_bind; [discriminate|]. intros f E. injection E as <-.
      apply hs_ret. intros s Hs. exists L', (MkVW (vst w) n' 0 (vz0 w) (vz w) (vx w) (vf w)). split; [eapply vs_stop; eauto|]. split; [exact Hs|].
      unfold vok. cbn [vst vn vl vz0 vz vx vf]. repeat (split; [solve [auto|lia]|]). auto.
    - rewrite Eb, Eu. cbn [key]. apply hs_lift_bind; [discriminate|]. intros b' E. injection E as <-. destruct (truthy b) eqn:Tb; cbn [negb].
      + destruct (nd_short d) as [h|] eqn:Eh; [|apply hs_lift_bind; [intros e s He Hs; right; right; auto|intros a E; discriminate]].
        cbn [key]. apply hs_lift_bind; [discriminate|]. intros h' E. injection E as <-.
        assert (Sb : says (nd_back d) true) by (rewrite Eb; exists b; auto).
        destruct (truthy h) eqn:Th.
        * assert (Sh : says (nd_short d) true) by (rewrite Eh; exists h; auto).
          destruct (half_ok (vz w) (vz0 w) O5 O4) as (z' & Ez & Hz').
          set (w2 := MkVW (vst w) n' l' (vz0 w) z' (vx w) (vf w)).
          eapply (hs_bind _ _ _ (fun q s => view L' w2 s /\ shown z' (vf w) q)).
          { unfold nt_half. apply hs_get_bind; intros s2 H2; apply (hs_pre _ (view L' w1)); [intros ? ->; exact H2|]. replace (ns_step s2) with (vst w) by (subst w1; sh).
            rewrite (slot_some _ _ (vz w)) by apply H2. apply hs_lift_bind; [discriminate|]. intros q Eq. injection Eq as <-.
            rewrite (slot_some _ _ (vz0 w)) by apply H2. apply hs_lift_bind; [discriminate|]. intros q Eq. injection Eq as <-.
            rewrite Ez. apply hs_lift_bind; [discriminate|]. intros q Eq. injection Eq as <-.
            eapply (hs_bind _ _ _ (fun _ => view L' w2)).
            { apply nput_hs; [intros ? ?; subst w1; sh|]. intros s l2 Hs HS. pose proof (set_nth_get_same _ _ _ _ HS) as G1.
              assert (G2 : nth_error l2 (vst w - 1) = nth_error (ns_zs s) (vst w - 1)) by (eapply set_nth_get_other; [exact HS|lia]). apply set_nth_length in HS. subst w1 w2. sh. }
            intros []. eapply hs_post; [| |apply (report_view L' w2); subst w2; cbn [vst vn vl vz0 vz vx vf]; auto; lia]; [intros a s Hs; exact Hs|intros e s Hs; left; exact Hs]. }
          intros q. apply hs_ret. intros s [Hs Hq]. exists L', w2. split; [eapply vs_half; eauto|]. split; [exact Hs|]. unfold vok. subst w2. cbn [vst vn vl vz0 vz vx vf]. repeat (split; [solve [auto]|]). exact O6.
        * assert (Sh : says (nd_short d) false) by (rewrite Eh; exists h; auto).
          apply hs_lift_bind; [discriminate|]. intros u' E. injection E as <-. destruct (truthy u) eqn:Tu.
          { apply hs_ret. intros s Hs. exists L', w1. split; [eapply vs_none; eauto; rewrite Eu; exists u; auto|]. split; [exact Hs|]. unfold vok. subst w1. cbn [vst vn vl vz0 vz vx vf]. repeat (split; [solve [auto]|]). exact O6. }
          intros s Hs. pose proof (smr_view d L' (vst w) n' l' (vz0 w) ltac:(lia) ltac:(lia) O4 ltac:(lia) s (proj1 (proj1 Hs))) as R. unfold sbind in *.
          destruct (nt_solve p v eps ideal nadir d s) as [sa [[]|e]]; [|destruct R as [R|R]; [right; left; auto|left; exact R]]. destruct (nt_move sa) as [sb [[]|e]]; [|destruct R as [R|R]; [right; left; auto|left; exact R]].
          destruct (nt_report p v ideal nadir sb) as [sc [q|e]]; [|destruct R as [R|R]; [right; left; auto|left; exact R]]. destruct R as (x & z' & Rc & Rp & Rl & Rv & Rs). cbn.
          exists L', (MkVW (vst w) n' l' (vz0 w) z' x (np_eval p x)). split; [eapply vs_back; eauto; rewrite Eu; exists u; auto|]. split; [exact Rv|].
          unfold vok. cbn [vst vn vl vz0 vz vx vf]. repeat (split; [solve [auto]|]). apply WF.
      + assert (Sb : says (nd_back d) false) by (rewrite Eb; exists b; auto).
        destruct (truthy u) eqn:Tu.
        * assert (Su : says (nd_prev d) true) by (rewrite Eu; exists u; auto).
          destruct (forward_keep d L' w1 u Eu Tu) as (z' & Ez & Hz' & F); try (subst w1; cbn [vst vn vl vz0 vz vx vf]; auto; lia).
          eapply hs_bind; [eapply hs_post; [| |exact F]; [intros a s Hs; exact Hs|intros e s Hs; left; exact Hs]|]. intros q. apply hs_ret. intros s [Rv Rs].
          exists L', (MkVW (S (vst w)) n' (l' - 1) (vz w) z' (vx w) (vf w)).
          split; [eapply vs_keep; eauto|]. split; [exact Rv|]. unfold vok. cbn [vst vn vl vz0 vz vx vf]. repeat (split; [solve [auto|lia]|]). exact O6.
        * assert (Su : says (nd_prev d) false) by (rewrite Eu; exists u; auto).
          eapply hs_bind; [eapply hs_post; [| |apply (forward_new d L' w1 u Eu Tu)]; [intros a s Hs; exact Hs|intros e s [Hs|Hs]; [right; left; auto|left; exact Hs]|..];
            subst w1; cbn [vst vn vl vz0 vz vx vf]; auto; lia|]. intros q. apply hs_ret. intros s (x & z' & Rc & Rp & Rl & Rv & Rs).
          exists L', (MkVW (S (vst w)) n' (l' - 1) (vz w) z' x (np_eval p x)). split; [eapply vs_new; eauto|]. split; [exact Rv|].
          unfold vok. cbn [vst vn vl vz0 vz vx vf]. repeat (split; [solve [auto|lia]|]). apply WF.
  Qed.
End View.
