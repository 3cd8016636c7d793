(** * Pareto Navigator: what each kind of call does to the state. *)
From Coq Require Import ZArith List Bool Lia.
From Verif Require Import Num Py Np Spec NpFacts Hoare MRpm MParetoNav SParetoNav.
Import ListNotations.

Ltac sok H := repeat match type of H with
  | sbind _ _ _ = (_, Ok _) => let a := fresh "a" in let s1 := fresh "s1" in let H1 := fresh "H" in
      apply sbind_ok in H; destruct H as (a & s1 & H1 & H)
  end.

Section Calls.
  Context {N : NumOps} (e : pn_env N).
  Notation vec := (list N).
  Notation mat := (list (list N)).

  Lemma p_ref_same (s : pn_state N) q : ps_ref s = q -> p_ref s q = s.
  Proof. destruct s; cbn. intros <-. reflexivity. Qed.
  Lemma p_speed_same (s : pn_state N) a : ps_speed s = a -> p_speed s a = s.
  Proof. destruct s; cbn. intros <-. reflexivity. Qed.

  (** The signed step of an answer, given the stored one. *)
  Definition pn_step_of (d : pn_dict N) (stored : option N) : res N :=
    do a0 <- match pd_speed d with Some v => pn_speed_of v | None => attr TypeErr stored end;
    Ok (if is_true (pd_back d) then nmul a0 (nofZ (-1)) else nabs a0).
  (** The reference point of an answer. *)
  Definition pn_ref_of (d : pn_dict N) (s : pn_state N) (c : pn_point N) : res vec :=
    match pd_ref d, pd_class d with
    | Some (RArr q), _ => Ok q
    | Some _, _ => Raise TypeErr
    | None, Some l => pn_class_ref (ps_ideal s) (ps_nadir s) c l
    | None, None => attr TypeErr (ps_ref s)
    end.

  (** A navigation answer that is followed by a request. *)
  Lemma handle_ok d s s' rq : is_true (pd_show d) = false -> pn_handle e d s = (s', Ok rq) ->
    exists a c q dir z, pn_step_of d (ps_speed s) = Ok a /\ ps_cur s = Some c /\ pn_ref_of d s c = Ok q /\
      pn_direction c q = Ok dir /\ pn_solve e c (ps_ideal s) (ps_nadir s) dir a (ps_A s) (ps_b s) = Ok z /\
      s' = p_cur (p_ref (p_speed s (Some a)) (Some q)) (Some (CVec z)) /\ rq = PReq (CVec z) (ps_ideal s) (ps_nadir s).
  Proof.
    intros Hs H. unfold pn_handle in H. rewrite Hs in H. apply sbind_ok in H. destruct H as (u & s1 & H1 & H).
    assert (E1 : exists o, (match pd_speed d with Some v => pn_speed_of v | None => attr TypeErr (ps_speed s) end) = o /\
                           (match pd_speed d with Some v => exists a0, o = Ok a0 /\ s1 = p_speed s (Some a0) | None => s1 = s end)).
    { eexists. split; [reflexivity|]. destruct (pd_speed d) as [v|].
      - apply sbind_ok in H1. destruct H1 as (a & s2 & H1 & H2). cbn in H1, H2. injection H1 as <- ->. injection H2 as <- <-. eauto.
      - cbn in H1. injection H1 as <- _. reflexivity. }
    destruct E1 as (o & Eo & E1).
    apply sbind_ok in H. destruct H as (s2 & s3 & H2 & H). cbn in H2. injection H2 as <- <-.
    apply sbind_ok in H. destruct H as (a0 & s4 & H2 & H). cbn in H2. injection H2 as <- H2.
    assert (Ea : pn_step_of d (ps_speed s) = Ok (if is_true (pd_back d) then nmul a0 (nofZ (-1)) else nabs a0)).
    { unfold pn_step_of. rewrite Eo. destruct (pd_speed d) as [v|].
      - destruct E1 as (a1 & -> & ->). cbn in H2. injection H2 as ->. reflexivity.
      - subst s1. rewrite <- Eo, H2. reflexivity. }
    set (a := if is_true (pd_back d) then nmul a0 (nofZ (-1)) else nabs a0) in *. cbv zeta in H.
    apply sbind_ok in H. destruct H as (u2 & s5 & H3 & H). cbn in H3. injection H3 as <- _.
    assert (Es : p_speed s1 (Some a) = p_speed s (Some a)).
    { destruct (pd_speed d) as [v|]; [destruct E1 as (a1 & _ & ->); reflexivity|subst s1; reflexivity]. }
    rewrite Es in H. assert (Ec : ps_cur s1 = ps_cur s /\ ps_ideal s1 = ps_ideal s /\ ps_nadir s1 = ps_nadir s /\ ps_ref s1 = ps_ref s).
    { destruct (pd_speed d) as [v|]; [destruct E1 as (a1 & _ & ->)|subst s1]; repeat split. }
    clear E1 Eo o H1 H2. destruct Ec as (Ec & Ei & En & Er). rewrite Ec, Ei, En in H.
    apply sbind_ok in H. destruct H as (c & s6 & H3 & H). cbn in H3. injection H3 as <- H3.
    assert (Hc : ps_cur s = Some c) by (unfold attr in H3; destruct (ps_cur s); congruence). clear H3.
    apply sbind_ok in H. destruct H as (u3 & s7 & H3 & H).
    assert (E7 : exists q, s7 = p_ref (p_speed s (Some a)) q /\ (forall r, q = Some r -> pn_ref_of d s c = Ok r)).
    { unfold pn_ref_of. destruct (pd_ref d) as [[q| |]|].
      - cbn in H3. injection H3 as <- _. exists (Some q). split; [reflexivity|congruence].
      - discriminate.
      - discriminate.
      - destruct (pd_class d) as [l|].
        + apply sbind_ok in H3. destruct H3 as (q & s8 & H3 & H4). cbn in H3, H4. injection H3 as <- H3. injection H4 as <- _.
          exists (Some q). split; [reflexivity|congruence].
        + cbn in H3. injection H3 as <- _. exists (ps_ref s). split; [destruct s; reflexivity|]. intros r ->. reflexivity. }
    destruct E7 as (q & -> & Hq).
    apply sbind_ok in H. destruct H as (s8 & s9 & H4 & H). cbn in H4. injection H4 as <- <-.
    apply sbind_ok in H. destruct H as (q1 & s10 & H4 & H). cbn in H4. injection H4 as <- H4.
    assert (E : q = Some q1) by (destruct q; cbn in H4; congruence). clear H4. subst q.
    apply sbind_ok in H. destruct H as (dir & s11 & H4 & H). cbn in H4. injection H4 as <- H4.
    apply sbind_ok in H. destruct H as (z & s12 & H5 & H). cbn [lift] in H5. unfold lift in H5.
    injection H5 as <- H5. cbn [p_ref p_speed ps_ideal ps_nadir ps_A ps_b] in H5.
    apply sbind_ok in H. destruct H as (u4 & s13 & H6 & H). cbn in H6. injection H6 as <- _.
    unfold pn_issue in H. apply sbind_ok in H. destruct H as (s14 & s15 & H6 & H). cbn in H6. injection H6 as <- <-.
    apply sbind_ok in H. destruct H as (c' & s16 & H6 & H). cbn in H6. injection H6 as <- <-. cbn in H. injection H as <- <-.
    exists a, c, q1, dir, z. repeat (split; [first [assumption|auto]|]). split; reflexivity.
  Qed.

  (** A failed navigation call has changed the step and the reference point at most. *)
  Lemma handle_raise d s s' x : pn_handle e d s = (s', Raise x) -> exists a q, s' = p_ref (p_speed s a) q.
  Proof.
    intros H.
    assert (HH : hs (fun t => t = s) (pn_handle e d) (fun _ _ => True) (fun _ t => exists a q, t = p_ref (p_speed s a) q)).
    { assert (E0 : s = p_ref (p_speed s (ps_speed s)) (ps_ref s)) by (destruct s; reflexivity).
      assert (E1 : forall a, p_speed s a = p_ref (p_speed s a) (ps_ref s)) by (destruct s; reflexivity).
      unfold pn_handle. apply hs_if; intros Hs.
      - unfold pn_show. apply hs_get_bind. intros s0 ->. apply hs_lift_bind; [intros; subst; eauto|]. intros c Hc.
        apply hs_lift_bind; [intros; subst; eauto|]. intros xf Hxf. eapply hs_mod_bind with (R := fun _ => True); [auto|]. apply hs_ret. auto.
      - eapply hs_bind with (R := fun _ t => exists a, t = p_speed s a).
        + destruct (pd_speed d) as [v|].
          * apply hs_lift_bind; [intros; subst; eauto|]. intros a Ha. apply hs_mod. intros t ->. eauto.
          * apply hs_ret. intros t ->. exists (ps_speed s). symmetry. apply p_speed_same. reflexivity.
        + intros _. apply hs_get_bind. intros s1 (a1 & ->).
          apply hs_lift_bind; [intros ? ? ? ->; eauto|]. intros a0 Ha0. cbv zeta.
          eapply hs_mod_bind with (R := fun t => exists a, t = p_speed s a); [intros t ->; eexists; reflexivity|].
          apply hs_lift_bind; [intros ? ? ? (? & ->); eauto|]. intros c Hc.
          eapply hs_bind with (R := fun _ t => exists a q, t = p_ref (p_speed s a) q).
          * destruct (pd_ref d) as [[q| |]|]; [| | |destruct (pd_class d) as [l|]].
            -- apply hs_mod. intros t (a & ->). do 2 eexists; reflexivity.
            -- intros t (a & ->). cbn. eauto.
            -- intros t (a & ->). cbn. eauto.
            -- apply hs_lift_bind; [intros ? ? ? (? & ->); eauto|]. intros q Hq. apply hs_mod. intros t (a & ->). do 2 eexists; reflexivity.
            -- apply hs_ret. intros t (a & ->). eauto.
          * intros _. apply hs_get_bind. intros s2 (a2 & q2 & ->).
            apply hs_lift_bind; [intros ? ? ? ->; eauto|]. intros q Hq.
            apply hs_lift_bind; [intros ? ? ? ->; eauto|]. intros dir Hdir.
            apply hs_lift_bind; [intros ? ? ? ->; eauto|]. intros z Hz.
            eapply hs_mod_bind with (R := fun t => exists c, ps_cur t = Some c); [intros t ->; cbn; eauto|].
            unfold pn_issue. apply hs_get_bind. intros s3 (c3 & E3). apply hs_lift_bind; [rewrite E3; discriminate|].
            intros c4 _. apply hs_ret. auto. }
    exact (hs_run _ _ _ _ _ _ _ HH eq_refl H).
  Qed.

  (** A request to show an actual solution. *)
  Lemma show_ok d s s' rq : is_true (pd_show d) = true -> pn_handle e d s = (s', Ok rq) ->
    exists c x f, ps_cur s = Some c /\ s' = p_po s (Some (x, f)) /\ rq = PSol c x f /\
      match pe_prob e with
      | PMO evaluate minimize => pn_minimize minimize false c = Ok x /\ f = evaluate x
      | PDisc objs decs => exists i, pn_disc objs c = Ok i /\ nth_error objs i = Some f /\ nth_error decs i = Some x
      end.
  Proof.
    intros Hs H. unfold pn_handle in H. rewrite Hs in H. unfold pn_show in H.
    apply sbind_ok in H. destruct H as (s2 & s3 & H2 & H). cbn in H2. injection H2 as <- <-.
    apply sbind_ok in H. destruct H as (c & s4 & H2 & H). unfold lift in H2. injection H2 as <- H2.
    apply sbind_ok in H. destruct H as ([x f] & s5 & H3 & H). unfold lift in H3. injection H3 as <- H3.
    cbn in H. injection H as <- <-.
    exists c, x, f. split; [unfold attr in H2; destruct (ps_cur s); congruence|]. split; [reflexivity|]. split; [reflexivity|].
    destruct (pe_prob e) as [evaluate minimize|objs decs].
    - apply rbind_ok in H3. destruct H3 as (x' & H3 & H4). injection H4 as <- <-. auto.
    - apply rbind_ok in H3. destruct H3 as (i & H3 & H4). apply rbind_ok in H4. destruct H4 as (f' & H4 & H5).
      apply rbind_ok in H5. destruct H5 as (x' & H5 & H6). injection H6 as <- <-. apply at_ok in H4. apply at_ok in H5. eauto.
  Qed.
  Lemma show_raise d s s' x : is_true (pd_show d) = true -> pn_handle e d s = (s', Raise x) -> s' = s.
  Proof.
    intros Hs H. unfold pn_handle in H. rewrite Hs in H. unfold pn_show, sbind, sget, lift, smod, sret in H.
    destruct (attr AttrErr (ps_cur s)); [|congruence].
    match type of H with context [match ?m with _ => _ end] => destruct m end; congruence.
  Qed.

  (** The initial answer. *)
  Lemma initial_ok d s s' rq : pn_handle_initial e d s = (s', Ok rq) ->
    exists q c v a, s' = p_speed (p_cur (p_ref s q) (Some c)) (Some a) /\ rq = PReq c (ps_ideal s) (ps_nadir s) /\
      pd_speed d = Some v /\ pn_speed_of v = Ok a /\
      match pd_ref d with
      | Some r => exists q', r = RArr q' /\ q = Some q' /\ pn_asf_start (pe_prob e) q' = Ok c
      | None => q = ps_ref s /\ exists z r, pd_pref d = Some (PIdx z) /\ py_nth (ps_pos s) z = Ok r /\ c = CVec r
      end.
  Proof.
    intros H. unfold pn_handle_initial in H.
    apply sbind_ok in H. destruct H as (s2 & s3 & H2 & H). cbn in H2. injection H2 as <- <-.
    apply sbind_ok in H. destruct H as (c & s4 & H2 & H).
    assert (E : exists q, s4 = p_ref s q /\ match pd_ref d with
      | Some r => exists q', r = RArr q' /\ q = Some q' /\ pn_asf_start (pe_prob e) q' = Ok c
      | None => q = ps_ref s /\ exists z r, pd_pref d = Some (PIdx z) /\ py_nth (ps_pos s) z = Ok r /\ c = CVec r
      end).
    { destruct (pd_ref d) as [[q'| |]|]; [| | |].
      - cbn in H2. injection H2 as <- H2. exists (Some q'). split; [reflexivity|]. exists q'. auto.
      - discriminate.
      - discriminate.
      - apply sbind_ok in H2. destruct H2 as (i & s5 & H2 & H3). unfold lift in H2. injection H2 as <- H2.
        destruct i as [z|]; [|discriminate]. apply sbind_ok in H3. destruct H3 as (r & s6 & H3 & H4). unfold lift in H3. injection H3 as <- H3.
        cbn in H4. injection H4 as <- <-. exists (ps_ref s). split; [symmetry; apply p_ref_same; reflexivity|].
        split; [reflexivity|]. exists z, r. unfold key in H2. destruct (pd_pref d); [|discriminate]. injection H2 as ->. auto. }
    destruct E as (q & -> & Eq).
    apply sbind_ok in H. destruct H as (u & s5 & H3 & H). cbn in H3. injection H3 as <- _.
    apply sbind_ok in H. destruct H as (v & s6 & H3 & H). unfold lift in H3. injection H3 as <- H3.
    apply sbind_ok in H. destruct H as (a & s7 & H4 & H). unfold lift in H4. injection H4 as <- H4.
    cbn in H. injection H as <- <-.
    exists q, c, v, a. repeat split; [|exact H4|exact Eq]. unfold key in H3. destruct (pd_speed d); congruence.
  Qed.
  Lemma initial_raise d s s' x : pn_handle_initial e d s = (s', Raise x) -> exists q c a, s' = p_speed (p_cur (p_ref s q) c) a.
  Proof.
    intros H.
    assert (HH : hs (fun t => t = s) (pn_handle_initial e d) (fun _ _ => True) (fun _ t => exists q c a, t = p_speed (p_cur (p_ref s q) c) a)).
    { assert (E0 : s = p_speed (p_cur (p_ref s (ps_ref s)) (ps_cur s)) (ps_speed s)) by (destruct s; reflexivity).
      assert (E1 : forall q, p_ref s q = p_speed (p_cur (p_ref s q) (ps_cur s)) (ps_speed s)) by (destruct s; reflexivity).
      assert (E2 : forall q c, p_cur (p_ref s q) c = p_speed (p_cur (p_ref s q) c) (ps_speed s)) by (destruct s; reflexivity).
      unfold pn_handle_initial. apply hs_get_bind. intros s0 ->.
      eapply hs_bind with (R := fun _ t => exists q, t = p_ref s q).
      - destruct (pd_ref d) as [[q'| |]|].
        + eapply hs_mod_bind with (R := fun t => t = p_ref s (Some q')); [intros t ->; reflexivity|].
          apply hs_lift; intros; subst; eauto.
        + intros t ->. cbn. eauto.
        + intros t ->. cbn. eauto.
        + apply hs_lift_bind; [intros; subst; eauto|]. intros [z|] _; [|intros t ->; cbn; eauto].
          apply hs_lift_bind; [intros; subst; eauto|]. intros r _. apply hs_ret. intros t ->. exists (ps_ref s). symmetry. apply p_ref_same. reflexivity.
      - intros c. eapply hs_mod_bind with (R := fun t => exists q, t = p_cur (p_ref s q) (Some c)); [intros t (q & ->); eauto|].
        apply hs_lift_bind; [intros ? ? ? (q & ->); eauto|]. intros v _. apply hs_lift_bind; [intros ? ? ? (q & ->); eauto|]. intros a _.
        eapply hs_mod_bind with (R := fun t => exists q, t = p_speed (p_cur (p_ref s q) (Some c)) (Some a)); [intros t (q & ->); eauto|].
        unfold pn_issue. apply hs_get_bind. intros s1 (q & ->). apply hs_lift_bind; [discriminate|]. intros c4 _. apply hs_ret. auto. }
    exact (hs_run _ _ _ _ _ _ _ HH eq_refl H).
  Qed.

  (** The answer to a shown solution. *)
  Lemma satisfied_ok d s s' rq : is_true (pd_sat d) = true -> pn_handle_solution e (Some d) s = (s', Ok rq) ->
    exists c x f, ps_cur s = Some c /\ ps_po s = Some (x, f) /\ s' = s /\ rq = PStop c x f.
  Proof.
    intros Hs H. unfold pn_handle_solution, sbind, sget in H. rewrite Hs in H. unfold lift, sret in H.
    destruct (ps_po s) as [[x f]|]; [|discriminate]. cbn [attr] in H. destruct (ps_cur s) as [c|]; [|discriminate]. cbn in H. injection H as <- <-. eauto 8.
  Qed.

  Definition unsatisfied (resp : option (pn_dict N)) : bool :=
    match resp with Some d => negb (is_true (pd_sat d)) | None => true end.

  (** A solution that is added. *)
  Record added (s s' : pn_state N) (f : vec) (x : vec) (eqs : mat) (lo hi : vec) : Prop := {
    ad_po : ps_po s = Some (x, f);
    ad_len : length f = length (hd [] (ps_pos s));
    ad_pos : ps_pos s' = ps_pos s ++ [f];
    ad_hull : pe_hull e (ps_pos s ++ [f]) = Ok eqs;
    ad_hi : np_max0 (ps_pos s ++ [f]) = Ok hi; ad_lo : np_min0 (ps_pos s ++ [f]) = Ok lo;
    ad_nadir : ps_nadir s' = zipw nmaximum hi (ps_nadir s); ad_ideal : ps_ideal s' = zipw nminimum lo (ps_ideal s);
    ad_w : pn_weights (ps_ideal s') (ps_nadir s') = Ok (ps_w s');
    ad_A : pn_lppp (ps_w s') (fst (pn_split eqs)) = Ok (ps_A s'); ad_b : ps_b s' = snd (pn_split eqs);
    ad_rest : ps_speed s' = ps_speed s /\ ps_ref s' = ps_ref s /\ ps_cur s' = ps_cur s /\ ps_po s' = ps_po s }.
  Lemma continue_ok resp s s' rq : unsatisfied resp = true -> pn_handle_solution e resp s = (s', Ok rq) ->
    exists x f eqs lo hi c, added s s' f x eqs lo hi /\ ps_cur s = Some c /\ rq = PReq c (ps_ideal s') (ps_nadir s').
  Proof.
    intros Hs H. unfold pn_handle_solution in H.
    apply sbind_ok in H. destruct H as (s2 & s3 & H2 & H). cbn in H2. injection H2 as <- <-.
    assert (Eb : match resp with Some d => is_true (pd_sat d) | None => false end = false).
    { unfold unsatisfied in Hs. destruct resp as [d|]; [destruct (is_true (pd_sat d)); [discriminate|]|]; reflexivity. }
    rewrite Eb in H.
    apply sbind_ok in H. destruct H as ([x f] & s4 & H2 & H). unfold lift in H2. injection H2 as <- H2. cbn [snd] in H.
    apply sbind_ok in H. destruct H as (pos & s5 & H3 & H). unfold lift in H3. injection H3 as <- H3.
    destruct (Nat.eqb_spec (length f) (length (hd [] (ps_pos s)))) as [El|El]; [|discriminate]. injection H3 as <-.
    apply sbind_ok in H. destruct H as (u & s6 & H3 & H). cbn in H3. injection H3 as <- _.
    apply sbind_ok in H. destruct H as (Ab & s7 & H3 & H). unfold lift in H3. injection H3 as <- H3.
    unfold pn_polyhedral in H3. apply rbind_ok in H3. destruct H3 as (eqs & H3 & H4). injection H4 as <-.
    apply sbind_ok in H. destruct H as (u1 & s8 & H4 & H). unfold smod in H4. injection H4 as <- _.
    apply sbind_ok in H. destruct H as (en & s9 & H4 & H). unfold lift in H4. injection H4 as <- H4.
    unfold pn_extremes in H4. apply rbind_ok in H4. destruct H4 as (hi & H4 & H5). apply rbind_ok in H5. destruct H5 as (lo & H5 & H6). injection H6 as <-.
    apply sbind_ok in H. destruct H as (nadir & s10 & H6 & H). cbn in H6. injection H6 as <- <-.
    apply sbind_ok in H. destruct H as (u2 & s11 & H6 & H). unfold smod in H6. injection H6 as <- _.
    apply sbind_ok in H. destruct H as (ideal & s12 & H6 & H). cbn in H6. injection H6 as <- <-.
    apply sbind_ok in H. destruct H as (u3 & s13 & H6 & H). unfold smod in H6. injection H6 as <- _.
    apply sbind_ok in H. destruct H as (w & s14 & H6 & H). unfold lift in H6. injection H6 as <- H6.
    apply sbind_ok in H. destruct H as (u4 & s15 & H7 & H). unfold smod in H7. injection H7 as <- _.
    apply sbind_ok in H. destruct H as (A & s16 & H7 & H). unfold lift in H7. injection H7 as <- H7.
    apply sbind_ok in H. destruct H as (u5 & s17 & H8 & H). unfold smod in H8. injection H8 as <- _.
    unfold pn_issue in H. apply sbind_ok in H. destruct H as (s18 & s19 & H8 & H). cbn in H8. injection H8 as <- <-.
    apply sbind_ok in H. destruct H as (c & s20 & H8 & H). unfold lift in H8. cbn [ps_cur p_A p_w p_ideal p_nadir p_b p_pos] in H8. injection H8 as <- H8.
    unfold sret in H. injection H as <- <-.
    exists x, f, eqs, lo, hi, c. repeat split; try assumption.
    - unfold attr in H2. destruct (ps_po s); congruence.
    - unfold attr in H8. destruct (ps_cur s); congruence.
  Qed.
End Calls.
