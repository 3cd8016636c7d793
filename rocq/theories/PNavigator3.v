(** * NAUTILUS Navigator: outcomes of an answer and the session invariant. *)
From Coq Require Import ZArith List Bool Lia.
From Verif Require Import Num Py Np Spec NpFacts MNavigator SNavigator PENautilus PNavigator PNavigator2.
Import ListNotations.

Section Nav.
  Context {N : NumOps} (L : OrdLaws N).
  Notation vec := (list N).
  Notation mat := (list (list N)).
  Implicit Types (asf : @asf_fn N) (s : nv_state N) (d : nv_dict N) (c : nv_content N) (q : nv_request N)
    (front : list (list N)).

  (** Why a forward answer fails. *)
  Inductive fwd_failure (asf : asf_fn) s (ref : vec) : Prop :=
  | ff_shape r0 : ns_step s <> 1%Z -> ns_ref s = Some r0 -> allclose ref r0 = Raise ValueErr -> fwd_failure asf s ref
  | ff_none bmask : reprojects s ref true -> admissible_mask (ns_front s) (ns_idx s) (ns_bounds s) bmask ->
      npnanargmin (map (fun row => asf (ns_nadir s) (ns_ideal s) row ref) (masked (ns_front s) (ns_idx s) bmask)) = Raise ValueErr ->
      fwd_failure asf s ref.

  Lemma allclose_err (a b : vec) e : allclose a b = Raise e -> e = ValueErr.
  Proof.
    unfold allclose, rmap, bcast2. destruct (Nat.eqb (length a) (length b)); [discriminate|].
    destruct a as [|? [|? ?]], b as [|? [|? ?]]; intros H; inversion H; auto.
  Qed.

  Lemma wf_w_proj k s ref pi : wf k s -> pi < length (ns_front s) -> wf k (w_proj (Some ref) (Some pi) s).
  Proof. intros [] H. constructor; cbn; auto. intros _. split; discriminate. Qed.
  Lemma wf_w_speed k s v : wf k s -> wf k (w_speed v s).
  Proof. intros []. constructor; cbn; auto. Qed.
  Lemma wf_w_front k s : wf k s -> wf k (w_front (ns_front s) s).
  Proof. intros []. constructor; cbn; auto. Qed.

  Lemma argmin_lt (a : vec) i : npnanargmin a = Ok i -> i < length a.
  Proof. intros H. apply (npnanargmin_ok L) in H. destruct H as [x [H _]]. apply nth_error_Some. congruence. Qed.

  Lemma nv_forward_cases k asf ref speed bounds s :
    wf k s -> length bounds = k ->
    (exists s' q, nv_forward asf ref speed bounds s = (s', Ok q)) \/
    (nv_forward asf ref speed bounds s = (if (ns_step s =? 1)%Z then w_speed (Some speed) s else s, Raise ValueErr) /\
     fwd_failure asf s ref).
  Proof.
    intros W Hb.
    destruct (masked_spec k (ns_front s) (ns_idx s) (ns_bounds s) (wf_front _ _ W) (wf_bounds _ _ W)) as (bm & Hbm & Hml & _).
    destruct (nv_solve_eq k asf (ns_front s) (ns_idx s) ref (ns_ideal s) (ns_nadir s) (ns_bounds s) bm
                (wf_front _ _ W) (wf_bounds _ _ W) (wf_idx _ _ W) Hbm) as (h & Hh & Hsolve).
    (* what happens when the projection is computed *)
    assert (Hsol : forall e, reprojects s ref true -> e = (if (ns_step s =? 1)%Z then w_speed (Some speed) s else s) ->
       let m := (r <-- lift (nv_solve asf [ns_front s] 0 (ns_idx s) ref (ns_ideal s) (ns_nadir s) (ns_bounds s)) ;;
                 f' <-- lift (h_get (fst r) 0) ;;
                 smod (w_front f') ;;; smod (w_proj (Some ref) (Some (snd r)))) ;;; nv_rest bounds in
       (exists s' q, m e = (s', Ok q)) \/ (m e = (e, Raise ValueErr) /\ fwd_failure asf s ref)).
    { intros e Hr He m. subst m.
      destruct (npnanargmin (map (fun row => asf (ns_nadir s) (ns_ideal s) row ref) (masked (ns_front s) (ns_idx s) bm))) as [pi|er] eqn:Ear.
      - left. unfold sbind at 1. rewrite (lift_bind _ _ _ _ Hsolve). cbn [fst snd].
        rewrite (lift_bind _ _ _ _ Hh). unfold smod at 1. unfold sbind at 1. unfold smod.
        assert (Hpi : pi < length (ns_front s)).
        { apply argmin_lt in Ear. rewrite map_length, Hml in Ear. auto. }
        eapply (nv_rest_total k bounds _ pi); auto.
        assert (We : wf k e) by (subst e; destruct (ns_step s =? 1)%Z; auto; apply wf_w_speed; auto).
        apply wf_w_proj.
        + replace (ns_front s) with (ns_front e) by (subst e; destruct (ns_step s =? 1)%Z; reflexivity). apply wf_w_front; auto.
        + subst e. destruct (ns_step s =? 1)%Z; cbn; auto.
      - right. assert (er = ValueErr) by (eapply npnanargmin_err; eauto). subst er. split.
        + unfold sbind at 1. rewrite (lift_bind_raise _ _ _ _ Hsolve). reflexivity.
        + eapply ff_none; eauto. }
    assert (Hfw : nv_forward asf ref speed bounds s =
      (again <-- (if (ns_step s =? 1)%Z then sret true
                 else r0 <-- lift (some_or TypeErr (ns_ref s)) ;; c <-- lift (allclose ref r0) ;; sret (negb c)) ;;
       (if again : bool then
       (if (ns_step s =? 1)%Z then smod (w_speed (Some speed)) else sret tt) ;;;
       (r <-- lift (nv_solve asf [ns_front s] 0 (ns_idx s) ref (ns_ideal s) (ns_nadir s) (ns_bounds s)) ;;
       f' <-- lift (h_get (fst r) 0) ;;
       smod (w_front f') ;;;
       smod (w_proj (Some ref) (Some (snd r))))
       else sret tt) ;;; nv_rest bounds) s) by reflexivity.
    rewrite Hfw. clear Hfw.
    destruct (Z.eqb_spec (ns_step s) 1) as [E1|E1].
    - destruct (Hsol (w_speed (Some speed) s)) as [H|H]; [left; auto|auto| |]; clear Hsol.
      + left. destruct H as (s' & q & H). exists s', q. rewrite <- H. reflexivity.
      + right. destruct H as [H HF]. split; [rewrite <- H; reflexivity|auto].
    - destruct (wf_started _ _ W E1) as [_ Hr0]. destruct (ns_ref s) as [r0|] eqn:Er0; [|congruence].
      destruct (allclose ref r0) as [cl|er] eqn:Ecl.
      + assert (Hag : forall K : bool -> SE (nv_state N) (nv_request N),
          (again <-- (r0 <-- lift (some_or TypeErr (Some r0)) ;; c <-- lift (allclose ref r0) ;; sret (negb c)) ;; K again) s = K (negb cl) s).
        { intros K. unfold sbind, lift, sret, some_or. rewrite Ecl. reflexivity. }
        rewrite Hag. clear Hag. destruct cl; cbn [negb].
        * destruct (wf_started _ _ W E1) as [Hp _]. destruct (ns_proj s) as [p|] eqn:Ep; [|congruence].
          left. destruct (nv_rest_total k bounds s p) as (s' & q & H); auto. exists s', q. rewrite <- H. reflexivity.
        * destruct (Hsol s) as [H|H]; [right; eauto 10|auto| |]; clear Hsol.
          -- left. destruct H as (s' & q & H). exists s', q. rewrite <- H. reflexivity.
          -- right. destruct H as [H HF]. split; [rewrite <- H; reflexivity|auto].
      + right. pose proof (allclose_err _ _ _ Ecl). subst er. split; [|eapply ff_shape; eauto].
        unfold sbind, lift, some_or. rewrite Ecl. reflexivity.
  Qed.

  (** Shapes after a forward answer. *)
  Lemma projection_lt k asf s ref pi : wf k s -> projection asf s ref pi -> pi < length (ns_front s).
  Proof.
    intros W (bm & Hbm & H). destruct (masked_spec k (ns_front s) (ns_idx s) (ns_bounds s) (wf_front _ _ W) (wf_bounds _ _ W)) as (bm' & Hbm' & Hml & _).
    assert (bm' = bm) by (unfold admissible_mask in *; congruence). subst bm'.
    apply argmin_lt in H. rewrite map_length, Hml in H. auto.
  Qed.
  Lemma bounds_spec_len front rows k nav bounds plb pub lb ub :
    bounds_spec front rows k nav bounds plb pub lb ub -> length lb = k /\ length ub = k /\ length nav = k.
  Proof.
    intros (Hn & bm & bs & _ & H & -> & ->). apply rseq_map_ok in H. apply Forall2_len in H. rewrite seq_length in H.
    rewrite !map_length. auto.
  Qed.
  Lemma box_idx_lt front (lb ub : vec) : Forall (fun i => i < length front) (box_idx front lb ub).
  Proof. apply Forall_forall. intros i Hi. apply box_idx_spec in Hi. destruct Hi as [row [H _]]. apply nth_error_Some. congruence. Qed.

  Lemma wf_forward k asf s ref speed bounds s' q :
    wf k s -> length bounds = k -> forward_spec asf s ref speed bounds s' q -> wf k s'.
  Proof.
    intros W Hb (again & pi & proj & nav & rows & lb & ub & dist & idx & Hr & Hp & Hpr & Hnav & Hrows & Hbs & Hd & Hi & -> & _).
    rewrite (wf_nadir _ _ W) in Hbs. destruct (bounds_spec_len _ _ _ _ _ _ _ _ _ Hbs) as (Hl & Hu & Hn).
    rewrite (nv_reachable_eq k) in Hi by (auto; apply (wf_front _ _ W)). injection Hi as <-.
    pose proof (wf_count _ _ W) as Hc.
    constructor; cbn; auto; try apply W.
    - rewrite idx_list_squeeze. apply box_idx_lt.
    - destruct (Z.eqb_spec (ns_left s) 1); lia.
    - destruct again; [eapply projection_lt; eauto|]. pose proof (wf_proj _ _ W) as Hwp. rewrite Hp in Hwp. auto.
    - intros _. split; [discriminate|]. destruct again; [discriminate|].
      destruct Hr as [[_ ?]|[Hs _]]; [discriminate|]. apply (wf_started _ _ W); auto.
  Qed.

  (** An issued request fits the method. *)
  Record cwf (k : nat) s c : Prop := {
    cw_ideal : nc_ideal c = ns_ideal s; cw_nadir : nc_nadir c = ns_nadir s;
    cw_lb : length (nc_lb c) = k; cw_ub : length (nc_ub c) = k; cw_nav : length (nc_nav c) = k;
    cw_idx : Forall (fun i => i < length (ns_front s)) (idx_list (nc_idx c));
    cw_count : (nc_step c + nc_left c = 101 /\ 1 <= nc_left c <= 100)%Z;
    cw_started : nc_step c <> 1%Z -> ns_proj s <> None /\ ns_ref s <> None }.

  Lemma cwf_of k s : wf k s -> forall c, nv_request_of s = NReq c -> cwf k s c.
  Proof. intros [] c H. injection H as <-. constructor; cbn; auto. Qed.
  Lemma cwf_mono k s s' c : cwf k s c -> ns_ideal s' = ns_ideal s -> ns_nadir s' = ns_nadir s -> ns_front s' = ns_front s ->
    (ns_proj s <> None -> ns_proj s' <> None) -> (ns_ref s <> None -> ns_ref s' <> None) -> cwf k s' c.
  Proof.
    intros [] E1 E2 E3 H1 H2. constructor; auto; try congruence.
    - rewrite E3; auto.
    - intros H. destruct (cw_started0 H). auto.
  Qed.

  Lemma wf_init k front ideal nadir vars : setup k front ideal nadir vars -> wf k (nv_init front ideal nadir vars).
  Proof.
    intros (Hm & Hi & Hn & _). constructor; cbn; auto; try lia.
    - rewrite map_length; auto.
    - apply Forall_forall. intros i H. apply in_seq in H. lia.
  Qed.

  Lemma nv_validate_len c d : nv_validate c d = Ok tt ->
    exists ref speed prev ub stop, d = MkND (Some ref) (Some speed) (Some prev) (Some ub) (Some stop) /\
      length (to_floats ub) = length (nc_ideal c) /\ (exists b, prev = VBool b) /\ (exists b, stop = VBool b).
  Proof.
    unfold nv_validate. destruct d as [[ref|] [speed|] [prev|] [ub|] [stop|]]; cbn; try discriminate.
    destruct (bany _ _ _) as [[|]|]; try discriminate.
    destruct (bany _ _ _) as [[|]|]; try discriminate.
    destruct (py_int speed); try discriminate. destruct (negb _) eqn:E1; [discriminate|].
    destruct prev; try discriminate. destruct (Nat.eqb_spec (length ub) (length (nc_ideal c))); try discriminate. cbn [negb].
    destruct stop; try discriminate. intros _. do 5 eexists. split; [reflexivity|].
    split; [unfold to_floats; rewrite map_length; auto|]. split; eauto.
  Qed.

  (** The three kinds of answers. *)
  Inductive answer asf s c d s' (out : res (nv_request N)) : Prop :=
  | a_stop : nd_stop d = Some (VBool true) -> s' = s -> out = nv_stop (ns_front s) (ns_vars s) (nc_idx c) -> answer asf s c d s' out
  | a_back ub : nd_stop d = Some (VBool false) -> nd_prev d = Some (VBool true) -> nd_bounds d = Some ub ->
      length (to_floats ub) = length (nc_ideal c) ->
      s' = MkNS (ns_front s) (ns_ideal s) (ns_nadir s) (ns_vars s) (nc_lb c) (nc_ub c) (to_floats ub) (nc_idx c) (nc_step c)
                (nc_left c) (nc_dist c) (ns_speed s) (ns_ref s) (nc_nav c) (ns_proj s) ->
      out = Ok (nv_request_of s') -> answer asf s c d s' out
  | a_fwd ref speed ub : nd_stop d = Some (VBool false) -> nd_prev d = Some (VBool false) ->
      nd_ref d = Some ref -> nd_speed d = Some speed -> nd_bounds d = Some ub ->
      length (to_floats ub) = length (nc_ideal c) ->
      nv_forward asf ref speed (to_floats ub) s = (s', out) -> answer asf s c d s' out.

  Lemma nv_iterate_answer asf s c d s' out :
    nv_validate c d = Ok tt -> nv_iterate asf (NReq c) (Some d) s = (s', out) -> answer asf s c d s' out.
  Proof.
    intros Hv H. apply nv_validate_len in Hv. destruct Hv as (ref & speed & prev & ub & stop & -> & Hl & [b ->] & [b' ->]).
    unfold nv_iterate, key in H. cbn [nd_ref nd_speed nd_prev nd_bounds nd_stop] in H.
    rewrite !(lift_bind _ _ _ _ eq_refl) in H.
    unfold sget at 1 in H. unfold sbind at 1 in H. cbn [truthy] in H.
    destruct b'.
    - unfold lift in H. injection H as <- <-. apply a_stop; auto.
    - destruct b.
      + unfold nv_back, smod, sbind, sget, sret in H. injection H as <- <-. eapply a_back; cbn; eauto.
      + eapply a_fwd; cbn; eauto.
  Qed.

  Lemma forward_spec_const asf s ref speed bounds s' q : forward_spec asf s ref speed bounds s' q ->
    ns_front s' = ns_front s /\ ns_ideal s' = ns_ideal s /\ ns_nadir s' = ns_nadir s /\ ns_vars s' = ns_vars s /\
    (ns_proj s' <> None) /\ (ns_ref s <> None -> ns_ref s' <> None) /\ q = nv_request_of s'.
  Proof.
    intros (again & pi & proj & nav & rows & lb & ub & dist & idx & Hr & Hp & Hpr & Hnav & Hrows & Hbs & Hd & Hi & -> & ->).
    cbn. repeat split; auto; try discriminate. destruct again; [discriminate|auto].
  Qed.

  (** What an answer does, under the invariant. *)
  Inductive outcome k asf s c d s' (out : res (nv_request N)) : Prop :=
  | o_stop rows decs : nd_stop d = Some (VBool true) -> s' = s ->
      take (ns_front s) (idx_list (nc_idx c)) = Ok rows ->
      (match ns_vars s with Some v => exists w, decs = Some w /\ take v (idx_list (nc_idx c)) = Ok w | None => decs = None end) ->
      out = Ok (NStop rows decs (nc_idx c)) -> outcome k asf s c d s' out
  | o_back ub : nd_stop d = Some (VBool false) -> nd_prev d = Some (VBool true) -> nd_bounds d = Some ub ->
      length (to_floats ub) = k ->
      s' = MkNS (ns_front s) (ns_ideal s) (ns_nadir s) (ns_vars s) (nc_lb c) (nc_ub c) (to_floats ub) (nc_idx c) (nc_step c)
                (nc_left c) (nc_dist c) (ns_speed s) (ns_ref s) (nc_nav c) (ns_proj s) ->
      out = Ok (nv_request_of s') -> outcome k asf s c d s' out
  | o_fwd ref speed ub : nd_stop d = Some (VBool false) -> nd_prev d = Some (VBool false) ->
      nd_ref d = Some ref -> nd_speed d = Some speed -> nd_bounds d = Some ub -> length (to_floats ub) = k ->
      forward_spec asf s ref speed (to_floats ub) s' (nv_request_of s') ->
      out = Ok (nv_request_of s') -> outcome k asf s c d s' out
  | o_fail ref speed ub : nd_stop d = Some (VBool false) -> nd_prev d = Some (VBool false) ->
      nd_ref d = Some ref -> nd_speed d = Some speed -> nd_bounds d = Some ub -> length (to_floats ub) = k ->
      fwd_failure asf s ref -> s' = (if (ns_step s =? 1)%Z then w_speed (Some speed) s else s) ->
      out = Raise ValueErr -> outcome k asf s c d s' out.

  Lemma nv_outcome k asf s c d s' out :
    wf k s -> length (ns_ideal s) = k -> cwf k s c ->
    match ns_vars s with Some v => length v = length (ns_front s) | None => True end ->
    nv_validate c d = Ok tt -> nv_iterate asf (NReq c) (Some d) s = (s', out) -> outcome k asf s c d s' out.
  Proof.
    intros W Hk C Hvars Hv H. apply nv_iterate_answer in H; auto. destruct H.
    - subst. unfold nv_stop. destruct (take_lt _ _ (cw_idx _ _ _ C)) as [rows Hrows].
      destruct (ns_vars s) as [v|] eqn:Ev.
      + destruct (take_lt v (idx_list (nc_idx c))) as [w Hw].
        { pose proof (cw_idx _ _ _ C) as Hi. rewrite Forall_forall in *. intros i Hin. rewrite Hvars. auto. }
        eapply (o_stop _ _ _ _ _ _ _ rows (Some w)); auto; [rewrite Ev; eauto|].
        rewrite Hw. cbn [rmap rbind]. rewrite Hrows. reflexivity.
      + eapply (o_stop _ _ _ _ _ _ _ rows None); auto; [rewrite Ev; auto|]. cbn [rbind]. rewrite Hrows. reflexivity.
    - eapply o_back; eauto. rewrite (cw_ideal _ _ _ C) in *. congruence.
    - rename H5 into Hf. rename H4 into Hl.
      assert (Hlk : length (to_floats ub) = k) by (rewrite (cw_ideal _ _ _ C) in *; congruence).
      destruct (nv_forward_cases k asf ref speed (to_floats ub) s W Hlk) as [(s1 & q & Hok)|[Hr HF]].
      + rewrite Hf in Hok. injection Hok as -> ->. apply nv_forward_ok in Hf.
        assert (q = nv_request_of s1) by apply (forward_spec_const _ _ _ _ _ _ _ Hf). subst q.
        eapply o_fwd; eauto.
      + rewrite Hf in Hr. injection Hr as -> ->. eapply o_fail; eauto.
  Qed.

  Record ginv k front (ideal nadir : vec) (vars : option mat) s (qs : list (nv_request N)) : Prop := {
    g_wf : wf k s; g_front : ns_front s = front; g_ideal : ns_ideal s = ideal; g_nadir : ns_nadir s = nadir; g_vars : ns_vars s = vars;
    g_reqs : forall c, In (NReq c) qs -> cwf k s c }.

  Lemma ginv_step k asf front ideal nadir vars s qs c d s' out :
    setup k front ideal nadir vars -> ginv k front ideal nadir vars s qs -> In (NReq c) qs ->
    outcome k asf s c d s' out ->
    ginv k front ideal nadir vars s' (match out with Ok q' => q' :: qs | Raise _ => qs end).
  Proof.
    intros Hs G Hin Ho. destruct G as [W G1 G2 G3 G4 G5]. pose proof (G5 c Hin) as C. subst front ideal nadir vars. destruct Ho; subst out; try subst s'.
    - constructor; auto. intros c' [E|Hc']; [discriminate|auto].
    - assert (W' : wf k (MkNS (ns_front s) (ns_ideal s) (ns_nadir s) (ns_vars s) (nc_lb c) (nc_ub c) (to_floats ub) (nc_idx c) (nc_step c)
                (nc_left c) (nc_dist c) (ns_speed s) (ns_ref s) (nc_nav c) (ns_proj s))).
      { destruct C. constructor; cbn; auto; try apply W. }
      constructor; auto. intros c' [E|Hc'].
      + injection E as <-. apply (cwf_of k _ W'). reflexivity.
      + apply G5 in Hc'. eapply cwf_mono; eauto.
    - pose proof (wf_forward _ _ _ _ _ _ _ _ W H4 H5) as W'.
      destruct (forward_spec_const _ _ _ _ _ _ _ H5) as (E1 & E2 & E3 & E4 & E5 & E6 & _).
      constructor; auto. intros c' [E|Hc'].
      + apply (cwf_of k _ W'). auto.
      + apply G5 in Hc'. eapply cwf_mono; eauto.
    - destruct (ns_step s =? 1)%Z; [|constructor; auto].
      constructor; auto. { apply wf_w_speed; auto. } intros c' Hc'. apply G5 in Hc'. eapply cwf_mono; eauto.
  Qed.

  Lemma ginv_reach k asf front ideal nadir vars s qs :
    setup k front ideal nadir vars -> nv_reach asf front ideal nadir vars s qs -> ginv k front ideal nadir vars s qs.
  Proof.
    intros Hs. induction 1 as [|s qs c d s' out Hr IH Hin Hv Hit].
    - pose proof (wf_init _ _ _ _ _ Hs) as W. constructor; auto. intros c [E|[]]. apply (cwf_of k _ W). auto.
    - eapply ginv_step; eauto. destruct IH. eapply nv_outcome; eauto.
      + rewrite g_ideal0. apply Hs.
      + rewrite g_vars0, g_front0. apply Hs.
  Qed.

  Lemma reach_outcome k asf front ideal nadir vars s qs c d s' out :
    setup k front ideal nadir vars -> nv_reach asf front ideal nadir vars s qs -> In (NReq c) qs ->
    nv_validate c d = Ok tt -> nv_iterate asf (NReq c) (Some d) s = (s', out) -> outcome k asf s c d s' out.
  Proof.
    intros Hs Hr Hin Hv Hit. pose proof (ginv_reach _ _ _ _ _ _ _ _ Hs Hr) as []. eapply nv_outcome; eauto.
    - rewrite g_ideal0. apply Hs.
    - rewrite g_vars0, g_front0. apply Hs.
  Qed.
End Nav.
