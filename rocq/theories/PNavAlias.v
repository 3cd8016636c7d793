(** * NAUTILUS Navigator with shared reference point arrays: proofs. *)
From Coq Require Import ZArith List Bool Lia.
From Verif Require Import Num Py Np Spec NpFacts MNavigator PENautilus PNavigator PNavigator2 MNavAlias SNavAlias.
Import ListNotations.

Section Alias.
  Context {N : NumOps}.
  Notation vec := (list N).
  Implicit Types (asf : @asf_fn N) (s : nv_state N) (d : nv_dict N) (q : nv_request N) (st : nva_state N) (es : list (nva_event N)).

  Lemma w_ref_id s : w_ref (ns_ref s) s = s.
  Proof. destruct s; reflexivity. Qed.
  Lemma w_ref_w r r' s : w_ref r (w_ref r' s) = w_ref r s.
  Proof. reflexivity. Qed.
  Lemma request_w_ref r s : nv_request_of (w_ref r s) = nv_request_of s.
  Proof. reflexivity. Qed.

  (** The part of a forward step after the projection does not look at the stored
      reference point. *)
  Lemma rest_ref bounds r s : nv_rest bounds (w_ref r s) = (w_ref r (fst (nv_rest bounds s)), snd (nv_rest bounds s)).
  Proof.
    unfold nv_rest, sbind, sget, lift, smod, sret, h_new.
    cbn [w_ref w_nav w_front w_lu w_dist w_idx w_count ns_front ns_ideal ns_nadir ns_vars ns_lb ns_ub ns_bounds ns_idx ns_step ns_left ns_dist ns_speed ns_ref ns_nav ns_proj].
    destruct (some_or TypeErr (ns_proj s)) as [pi|]; [|reflexivity].
    destruct (at_ (ns_front s) pi) as [proj|]; [|reflexivity].
    destruct (nv_nav_point proj (ns_nav s) (ns_left s)) as [nav|]; [|reflexivity].
    destruct (take (ns_front s) (idx_list (ns_idx s))) as [rows|]; [|reflexivity].
    destruct (nv_bounds _ _ _ _ _ _ _) as [b|]; [|reflexivity].
    destruct (h_get (fst b) 0) as [f'|]; [|reflexivity].
    cbn [w_ref w_nav w_front w_lu w_dist w_idx w_count ns_front ns_ideal ns_nadir ns_vars ns_lb ns_ub ns_bounds ns_idx ns_step ns_left ns_dist ns_speed ns_ref ns_nav ns_proj].
    destruct (at_ f' pi) as [p2|]; [|reflexivity].
    destruct (nv_distance nav p2 (ns_nadir s)) as [ds|]; [|reflexivity].
    destruct (nv_reachable f' (fst (snd b)) (snd (snd b))) as [ix|]; [|reflexivity].
    cbn [w_ref w_nav w_front w_lu w_dist w_idx w_count ns_front ns_ideal ns_nadir ns_vars ns_lb ns_ub ns_bounds ns_idx ns_step ns_left ns_dist ns_speed ns_ref ns_nav ns_proj].
    destruct (ns_left s =? 1)%Z; reflexivity.
  Qed.
  Lemma rest_keeps bounds s : ns_ref (fst (nv_rest bounds s)) = ns_ref s.
  Proof. pose proof (rest_ref bounds (ns_ref s) s) as H. rewrite w_ref_id in H. rewrite H. reflexivity. Qed.
  (** It never lowers the step number. *)
  Lemma rest_step bounds s : (ns_step s <= ns_step (fst (nv_rest bounds s)))%Z.
  Proof.
    unfold nv_rest, sbind, sget, lift, smod, sret, h_new.
    destruct (some_or TypeErr (ns_proj s)) as [pi|]; [|cbn; lia].
    destruct (at_ (ns_front s) pi) as [proj|]; [|cbn; lia].
    destruct (nv_nav_point proj (ns_nav s) (ns_left s)) as [nav|]; [|cbn; lia].
    destruct (take (ns_front s) (idx_list (ns_idx s))) as [rows|]; [|cbn; lia].
    destruct (nv_bounds _ _ _ _ _ _ _) as [b|]; [|cbn; lia].
    destruct (h_get (fst b) 0) as [f'|]; [|cbn; lia].
    cbn [w_nav w_front w_lu w_dist w_idx w_count ns_front ns_ideal ns_nadir ns_vars ns_lb ns_ub ns_bounds ns_idx ns_step ns_left ns_dist ns_speed ns_ref ns_nav ns_proj].
    destruct (at_ f' pi) as [p2|]; [|cbn; lia].
    destruct (nv_distance nav p2 (ns_nadir s)) as [ds|]; [|cbn; lia].
    destruct (nv_reachable f' (fst (snd b)) (snd (snd b))) as [ix|]; [|cbn; lia].
    destruct (ns_left s =? 1)%Z; cbn; lia.
  Qed.

  Lemma solve_front asf front idx ref ideal nadir bounds r :
    nv_solve asf [front] 0 idx ref ideal nadir bounds = Ok r -> h_get (fst r) 0 = Ok front.
  Proof. destruct r as [h i]. intros H. apply nv_solve_ok in H. tauto. Qed.

  (** A forward step, by cases. *)
  Definition asks s (ref : vec) : res bool :=
    if (ns_step s =? 1)%Z then Ok true
    else match ns_ref s with
         | None => Raise TypeErr
         | Some r0 => match allclose ref r0 with Ok c => Ok (negb c) | Raise e => Raise e end
         end.
  Lemma forward_eq asf ref speed bounds s :
    nv_forward asf ref speed bounds s =
    match asks s ref with
    | Raise e => (s, Raise e)
    | Ok false => nv_rest bounds s
    | Ok true =>
        let s0 := if (ns_step s =? 1)%Z then w_speed (Some speed) s else s in
        match nv_solve asf [ns_front s] 0 (ns_idx s) ref (ns_ideal s) (ns_nadir s) (ns_bounds s) with
        | Raise e => (s0, Raise e)
        | Ok r => nv_rest bounds (w_proj (Some ref) (Some (snd r)) s0)
        end
    end.
  Proof.
    assert (T : forall (b : bool) s0, s0 = (if (ns_step s =? 1)%Z then w_speed (Some speed) s else s) ->
      (( (if (ns_step s =? 1)%Z then smod (w_speed (Some speed)) else sret tt) ;;;
         (r <-- lift (nv_solve asf [ns_front s] 0 (ns_idx s) ref (ns_ideal s) (ns_nadir s) (ns_bounds s)) ;;
         f' <-- lift (h_get (fst r) 0) ;;
         smod (w_front f') ;;;
         smod (w_proj (Some ref) (Some (snd r))))) ;;; nv_rest bounds) s =
      match nv_solve asf [ns_front s] 0 (ns_idx s) ref (ns_ideal s) (ns_nadir s) (ns_bounds s) with
      | Raise e => (s0, Raise e)
      | Ok r => nv_rest bounds (w_proj (Some ref) (Some (snd r)) s0)
      end).
    { intros _ s0 ->. unfold sbind, smod, sret, lift.
      destruct (nv_solve asf [ns_front s] 0 (ns_idx s) ref (ns_ideal s) (ns_nadir s) (ns_bounds s)) as [r|e] eqn:E.
      - rewrite (solve_front _ _ _ _ _ _ _ _ E). destruct (ns_step s =? 1)%Z; cbn [w_speed w_front w_proj]; destruct s; reflexivity.
      - destruct (ns_step s =? 1)%Z; reflexivity. }
    unfold asks.
    assert (Hfw : nv_forward asf ref speed bounds s =
      (again <-- (if (ns_step s =? 1)%Z then sret true
                 else r0 <-- lift (some_or TypeErr (ns_ref s)) ;; c <-- lift (allclose ref r0) ;; sret (negb c)) ;;
       (if again : bool then
       (if (ns_step s =? 1)%Z then smod (w_speed (Some speed)) else sret tt) ;;;
       (r <-- lift (nv_solve asf [ns_front s] 0 (ns_idx s) ref (ns_ideal s) (ns_nadir s) (ns_bounds s)) ;;
       f' <-- lift (h_get (fst r) 0) ;;
       smod (w_front f') ;;;
       smod (w_proj (Some ref) (Some (snd r))))
       else sret tt) ;;; nv_rest bounds) s) by reflexivity.
    rewrite Hfw. clear Hfw. specialize (T true _ eq_refl).
    destruct (ns_step s =? 1)%Z.
    - unfold sbind at 1, sret at 1. exact T.
    - destruct (ns_ref s) as [r0|]; [|reflexivity]. unfold some_or.
      destruct (allclose ref r0) as [c|e] eqn:Ec.
      + destruct c; cbn [negb].
        * unfold sbind, lift, sret. rewrite Ec. cbn [negb]. reflexivity.
        * rewrite <- T. unfold sbind at 1. unfold sbind at 1. unfold lift at 1. unfold sbind at 1. rewrite Ec. unfold lift at 1, sret at 1. cbn [negb]. reflexivity.
      + unfold sbind, lift. rewrite Ec. reflexivity.
  Qed.

  Lemma iterate_eq asf q d s :
    nv_iterate asf q (Some d) s =
    match nd_ref d, nd_speed d, nd_prev d, nd_bounds d, nd_stop d with
    | Some ref, Some speed, Some prev, Some ub, Some stop =>
        if truthy stop then (s, nv_stop (ns_front s) (ns_vars s) (match q with NReq c => nc_idx c | NStop _ _ idx => idx end))
        else if truthy prev then match q with NReq c => nv_back c (to_floats ub) s | NStop _ _ _ => (s, Raise KeyErr) end
        else nv_forward asf ref speed (to_floats ub) s
    | _, _, _, _, _ => (s, Raise KeyErr)
    end.
  Proof.
    unfold nv_iterate, sbind, lift, key, sget.
    destruct (nd_ref d), (nd_speed d), (nd_prev d), (nd_bounds d), (nd_stop d); try reflexivity.
    destruct q; destruct (truthy p1); try reflexivity; destruct (truthy p0); reflexivity.
  Qed.

  (** [nv_keeps] says which calls change the attribute. *)
  Lemma keeps_ok asf q d v s :
    ns_ref (fst (nv_iterate asf q (Some (with_ref v d)) s)) = if nv_keeps asf v d s then Some v else ns_ref s.
  Proof.
    rewrite iterate_eq. cbn [with_ref nd_ref nd_speed nd_prev nd_bounds nd_stop]. unfold nv_keeps.
    destruct (nd_speed d) as [sp|], (nd_prev d) as [pr|], (nd_bounds d) as [ub|], (nd_stop d) as [so|]; try reflexivity.
    destruct (truthy so); [reflexivity|]. destruct (truthy pr); [destruct q; reflexivity|]. cbn [negb andb].
    rewrite forward_eq. unfold asks. destruct (ns_step s =? 1)%Z eqn:E1.
    - cbn [orb andb]. destruct (nv_solve _ _ _ _ _ _ _ _) as [r|e]; cbn [is_ok]; [rewrite rest_keeps|]; reflexivity.
    - cbn [orb]. destruct (ns_ref s) as [r0|] eqn:Er; [|cbn [fst andb]; exact Er].
      destruct (allclose v r0) as [[|]|e]; cbn [negb andb fst].
      + rewrite rest_keeps. exact Er.
      + destruct (nv_solve _ _ _ _ _ _ _ _) as [r|e]; cbn [is_ok]; [rewrite rest_keeps; reflexivity|exact Er].
      + exact Er.
  Qed.

  (** ** Arrays that are left alone *)
  Definition ref_sync st : Prop := na_ref (na_heap st) (na_loc st) = ns_ref (na_s st).

  Lemma step_answer_sync asf i l d st :
    ref_sync st ->
    ref_sync (nva_step asf (AAnswer i l d) st) /\ na_heap (nva_step asf (AAnswer i l d) st) = na_heap st /\
    (na_loc (nva_step asf (AAnswer i l d) st) = Some l \/ na_loc (nva_step asf (AAnswer i l d) st) = na_loc st) /\
    forall v, nth_error (na_heap st) l = Some v ->
      (na_s (nva_step asf (AAnswer i l d) st), na_reqs (nva_step asf (AAnswer i l d) st)) =
      nvv_step asf (i, with_ref v d) (na_s st, na_reqs st).
  Proof.
    intros S. unfold nva_step, nvv_step. cbn [fst snd].
    destruct (nth_error (na_reqs st) i) as [q|] eqn:Eq; [|destruct st; repeat split; auto].
    destruct (nth_error (na_heap st) l) as [v|] eqn:El; [|destruct st; repeat split; auto; discriminate].
    rewrite S, w_ref_id. pose proof (keeps_ok asf q d v (na_s st)) as K.
    destruct (nv_iterate asf q (Some (with_ref v d)) (na_s st)) as [s' out] eqn:E. cbn [fst na_heap na_s na_loc na_reqs] in *.
    split; [|split; [reflexivity|split]].
    - unfold ref_sync. cbn [na_heap na_s na_loc]. rewrite K. destruct (nv_keeps asf v d (na_s st)); [exact El|exact S].
    - destruct (nv_keeps asf v d (na_s st)); auto.
    - intros v' Hv. injection Hv as <-. rewrite E. reflexivity.
  Qed.

  Lemma set_nth_same {A} (l : list A) : forall i x r, set_nth l i x = Some r -> nth_error r i = Some x.
  Proof.
    induction l as [|a l IH]; intros [|i] x r H; cbn in H; try discriminate.
    - injection H as <-. reflexivity.
    - destruct (set_nth l i x) eqn:E; [|discriminate]. injection H as <-. cbn. eapply IH; eauto.
  Qed.
  Lemma set_nth_other {A} (l : list A) : forall i j x r, set_nth l i x = Some r -> i <> j -> nth_error r j = nth_error l j.
  Proof.
    induction l as [|a l IH]; intros [|i] [|j] x r H Hn; cbn in H; try discriminate; try (injection H as <-; reflexivity); try lia.
    - destruct (set_nth l i x) eqn:E; [|discriminate]. injection H as <-. reflexivity.
    - destruct (set_nth l i x) eqn:E; [|discriminate]. injection H as <-. cbn. eapply IH; eauto.
  Qed.

  Lemma ref_new st v : ref_sync st -> (forall l, na_loc st = Some l -> nth_error (na_heap st) l <> None) ->
    na_ref (na_heap st ++ [v]) (na_loc st) = ns_ref (na_s st).
  Proof.
    unfold ref_sync, na_ref. intros S H. destruct (na_loc st) as [l|]; [|exact S].
    specialize (H l eq_refl). rewrite nth_error_app1; [exact S|]. apply nth_error_Some. exact H.
  Qed.

  Lemma left_alone_cons e es : left_alone (e :: es) -> left_alone es.
  Proof. intros H a i l d b v E. apply (H (e :: a) i l d b v). rewrite E. reflexivity. Qed.

  Lemma run_by_value asf es : forall st,
    ref_sync st -> (forall l, na_loc st = Some l -> nth_error (na_heap st) l <> None) ->
    left_alone es -> (forall l v, na_loc st = Some l -> ~ In (AEdit l v) es) ->
    (na_s (nva_run asf es st), na_reqs (nva_run asf es st)) = nvv_run asf (as_given (na_heap st) es) (na_s st, na_reqs st).
  Proof.
    induction es as [|e es IH]; intros st S Hl HA HN; [reflexivity|].
    unfold nva_run. cbn [fold_left]. fold (nva_run asf es (nva_step asf e st)).
    pose proof (left_alone_cons _ _ HA) as HA'.
    destruct e as [v|l v|i l d].
    - cbn [nva_step as_given]. rewrite IH; cbn [na_heap na_s na_loc na_reqs]; auto.
      + unfold ref_sync. cbn [na_heap na_s na_loc]. apply ref_new; auto.
      + intros l Hll. specialize (Hl l Hll). rewrite nth_error_app1; auto. apply nth_error_Some; auto.
      + intros l w Hll Hin. apply (HN l w Hll). right; auto.
    - cbn [nva_step as_given]. destruct (set_nth (na_heap st) l v) as [h'|] eqn:E.
      + assert (Hne : forall l0, na_loc st = Some l0 -> l <> l0).
        { intros l0 H0 ->. apply (HN l0 v H0). left; auto. }
        rewrite IH; cbn [na_heap na_s na_loc na_reqs]; auto.
        * unfold ref_sync, na_ref in *. cbn [na_heap na_s na_loc]. destruct (na_loc st) as [l0|]; [|exact S].
          rewrite (set_nth_other _ _ _ _ _ E); auto.
        * intros l0 H0. rewrite (set_nth_other _ _ _ _ _ E); auto.
        * intros l0 w H0 Hin. apply (HN l0 w H0). right; auto.
      + apply IH; auto. intros l0 w H0 Hin. apply (HN l0 w H0). right; auto.
    - destruct (step_answer_sync asf i l d st S) as (S' & Hh & Hloc & Hv). cbn [as_given].
      assert (HN' : forall l0 w, na_loc (nva_step asf (AAnswer i l d) st) = Some l0 -> ~ In (AEdit l0 w) es).
      { intros l0 w H0 Hin. destruct Hloc as [Hloc|Hloc]; rewrite Hloc in H0.
        - injection H0 as <-. exact (HA [] i l d es w eq_refl Hin).
        - apply (HN l0 w H0). right; auto. }
      destruct (nth_error (na_heap st) l) as [v|] eqn:El.
      + rewrite IH; auto.
        * rewrite Hh. unfold nvv_run. cbn [fold_left]. rewrite <- (Hv v eq_refl). reflexivity.
        * rewrite Hh. intros l0 H0. destruct Hloc as [Hloc|Hloc]; rewrite Hloc in H0; [injection H0 as <-; congruence|auto].
      + assert (E : nva_step asf (AAnswer i l d) st = st).
        { unfold nva_step. rewrite El. destruct (nth_error (na_reqs st) i); reflexivity. }
        rewrite E in *. apply IH; auto.
  Qed.

  (** ** One array, edited in place *)
  (** A forward step at a later step with a reference point that looks unchanged. *)
  Lemma iterate_unchanged asf q d v s :
    ns_step s <> 1%Z -> ns_ref s = Some v -> allclose v v = Ok true ->
    match nd_prev d with Some p => truthy p = false | None => True end ->
    forall v', allclose v' v' = Ok true ->
    nv_iterate asf q (Some (with_ref v' d)) (w_ref (Some v') s) =
    (w_ref (Some v') (fst (nv_iterate asf q (Some (with_ref v d)) s)), snd (nv_iterate asf q (Some (with_ref v d)) s)) /\
    nv_keeps asf v' d (w_ref (Some v') s) = false /\
    (ns_step s <= ns_step (fst (nv_iterate asf q (Some (with_ref v d)) s)))%Z /\
    ns_ref (fst (nv_iterate asf q (Some (with_ref v d)) s)) = Some v.
  Proof.
    intros H1 Hr Hc Hp v' Hc'.
    assert (K : forall w s0, ns_step s0 <> 1%Z -> ns_ref s0 = Some w -> allclose w w = Ok true -> nv_keeps asf w d s0 = false).
    { intros w s0 A B C. unfold nv_keeps. rewrite B, C. destruct (Z.eqb_spec (ns_step s0) 1); [contradiction|]. cbn [negb orb].
      destruct (nd_speed d), (nd_prev d), (nd_bounds d), (nd_stop d); try reflexivity. rewrite andb_false_r. reflexivity. }
    assert (F : forall w s0 sp ub, ns_step s0 <> 1%Z -> ns_ref s0 = Some w -> allclose w w = Ok true -> nv_forward asf w sp ub s0 = nv_rest ub s0).
    { intros w s0 sp ub A B C. rewrite forward_eq. unfold asks. rewrite B, C. destruct (Z.eqb_spec (ns_step s0) 1); [contradiction|]. reflexivity. }
    split; [|split; [apply K; auto|split]].
    - rewrite !iterate_eq. cbn [with_ref nd_ref nd_speed nd_prev nd_bounds nd_stop].
      destruct (nd_speed d) as [sp|], (nd_prev d) as [pr|], (nd_bounds d) as [ub|], (nd_stop d) as [so|]; try reflexivity.
      destruct (truthy so); [reflexivity|]. rewrite Hp. rewrite !F by auto. apply rest_ref.
    - rewrite iterate_eq. cbn [with_ref nd_ref nd_speed nd_prev nd_bounds nd_stop].
      destruct (nd_speed d) as [sp|], (nd_prev d) as [pr|], (nd_bounds d) as [ub|], (nd_stop d) as [so|]; cbn [fst]; try lia.
      destruct (truthy so); [cbn [fst]; lia|]. rewrite Hp. rewrite F by auto. apply rest_step.
    - rewrite keeps_ok, K by auto. exact Hr.
  Qed.

  Lemma run_one_array asf l es : forall st v0 s,
    na_loc st = Some l -> (exists v, nth_error (na_heap st) l = Some v /\ allclose v v = Ok true) ->
    ns_step s <> 1%Z -> (1 <= ns_step s)%Z -> ns_ref s = Some v0 -> allclose v0 v0 = Ok true ->
    (exists r, na_s st = w_ref r s) ->
    one_array l es -> contents_ok (fun v => allclose v v = Ok true) es ->
    na_reqs (nva_run asf es st) = snd (nvv_run asf (all_with v0 (as_given (na_heap st) es)) (s, na_reqs st)).
  Proof.
    induction es as [|e es IH]; intros st v0 s Hl (v & Hv & Hcv) H1 H1' Hr Hc (r & Hs) HO HC; [reflexivity|].
    assert (HO' : one_array l es) by (intros e' He'; apply HO; right; auto).
    assert (HC' : contents_ok (fun v => allclose v v = Ok true) es) by (intros l' v' Hin; apply (HC l' v'); right; auto).
    unfold nva_run. cbn [fold_left]. fold (nva_run asf es (nva_step asf e st)).
    destruct e as [w|l' w|i l' d].
    - cbn [nva_step as_given]. rewrite (IH _ v0 s); cbn [na_heap na_s na_loc na_reqs]; auto; [|eauto].
      exists v. split; auto. rewrite nth_error_app1; auto. apply nth_error_Some. congruence.
    - cbn [nva_step as_given]. destruct (set_nth (na_heap st) l' w) as [h'|] eqn:E.
      + rewrite (IH _ v0 s); cbn [na_heap na_s na_loc na_reqs]; auto; [|eauto].
        destruct (Nat.eq_dec l' l) as [->|Hne].
        * exists w. split; [eapply set_nth_same; eauto|]. apply (HC l w). left; auto.
        * exists v. split; auto. rewrite (set_nth_other _ _ _ _ _ E); auto.
      + apply (IH _ v0 s); eauto.
    - destruct (HO _ (or_introl eq_refl)) as [-> Hp]. cbn [nva_step as_given]. rewrite Hv. cbn [all_with map fst snd].
      unfold nvv_run. cbn [fold_left]. unfold nvv_step at 2. cbn [fst snd].
      destruct (nth_error (na_reqs st) i) as [q|] eqn:Eq.
      + rewrite Hl. cbn [na_ref]. rewrite Hv. rewrite Hs, w_ref_w.
        destruct (iterate_unchanged asf q d v0 s H1 Hr Hc Hp v Hcv) as (E & K & St & Rf).
        rewrite E, K.
        change (with_ref v0 (with_ref v d)) with (with_ref v0 d).
        destruct (nv_iterate asf q (Some (with_ref v0 d)) s) as [s' out]. cbn [fst snd] in *.
        rewrite (IH _ v0 s'); cbn [na_heap na_s na_loc na_reqs]; eauto; lia.
      + fold (nvv_run asf (all_with v0 (as_given (na_heap st) es)) (s, na_reqs st)). apply IH; eauto.
  Qed.
End Alias.
