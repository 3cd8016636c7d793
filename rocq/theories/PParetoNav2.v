(** * Pareto Navigator: the shape of the state in every history; ideal and nadir widen. *)
From Coq Require Import ZArith List Bool Lia.
From Verif Require Import Num Py Np Spec NpFacts Hoare MRpm MParetoNav SParetoNav PParetoNav.
Import ListNotations.

Section Shape.
  Context {N : NumOps} (e : pn_env N) (k : nat).
  Notation vec := (list N).
  Notation mat := (list (list N)).
  Context (Hk : 2 <= k) (HH : forall pts eqs, pe_hull e pts = Ok eqs -> is_matrix (S k) eqs)
          (HP : match pe_prob e with PMO evaluate _ => forall x, length (evaluate x) = k | PDisc objs decs => objs <> [] /\ is_matrix k objs end).

  (** The approximation is the one of [pts]. *)
  Record approx_of (s : pn_state N) (pts eqs : mat) : Prop := {
    ao_hull : pe_hull e pts = Ok eqs; ao_rows : is_matrix (S k) eqs;
    ao_w : pn_weights (ps_ideal s) (ps_nadir s) = Ok (ps_w s);
    ao_A : pn_lppp (ps_w s) (fst (pn_split eqs)) = Ok (ps_A s); ao_b : ps_b s = snd (pn_split eqs) }.
  Record pn_ok (s : pn_state N) : Prop := {
    ok_ideal : length (ps_ideal s) = k; ok_nadir : length (ps_nadir s) = k;
    ok_pos : is_matrix k (ps_pos s); ok_ne : ps_pos s <> [];
    ok_po : forall x f, ps_po s = Some (x, f) -> length f = k;
    ok_ap : exists pts extra eqs, ps_pos s = pts ++ extra /\ approx_of s pts eqs /\
              (extra = [] \/ exists er, pe_hull e (ps_pos s) = Raise er) }.

  Lemma fold_zip_len (f : N -> N -> N) m r : is_matrix (length r) m -> length (fold_left (zipw f) m r) = length r.
  Proof.
    revert r. induction m as [|a m IH]; intros r Hm; [reflexivity|]. inversion Hm; subst. cbn [fold_left].
    assert (E : length (zipw f r a) = length r) by (rewrite zipw_length; lia).
    rewrite IH; rewrite E; auto.
  Qed.
  Lemma max0_len (m : mat) v : is_matrix k m -> np_max0 m = Ok v -> length v = k.
  Proof. destruct m as [|r m]; [discriminate|]. intros Hm E. injection E as <-. pose proof (Forall_inv Hm) as Hr. pose proof (Forall_inv_tail Hm) as Ht. cbn in Hr. rewrite fold_zip_len; rewrite Hr; auto. Qed.
  Lemma min0_len (m : mat) v : is_matrix k m -> np_min0 m = Ok v -> length v = k.
  Proof. destruct m as [|r m]; [discriminate|]. intros Hm E. injection E as <-. pose proof (Forall_inv Hm) as Hr. pose proof (Forall_inv_tail Hm) as Ht. cbn in Hr. rewrite fold_zip_len; rewrite Hr; auto. Qed.
  Lemma weights_len (i n w : vec) : length i = k -> length n = k -> pn_weights i n = Ok w -> length w = k.
  Proof.
    unfold pn_weights. intros Hi Hn H. rewrite bcast2_eq in H by lia. cbn in H. injection H as <-. rewrite map_length, zipw_length. lia.
  Qed.
  Lemma weights_ex (i n : vec) : length i = k -> length n = k -> exists w, pn_weights i n = Ok w.
  Proof. unfold pn_weights. intros Hi Hn. rewrite bcast2_eq by lia. cbn. eauto. Qed.
  Lemma removelast_len {A} (l : list A) : length (removelast l) = length l - 1.
  Proof. induction l as [|a l IH]; [reflexivity|]. destruct l as [|b l]; [reflexivity|]. cbn [removelast length] in *. rewrite IH. lia. Qed.
  Lemma lppp_ex (w : vec) (eqs : mat) : length w = k -> is_matrix (S k) eqs -> exists A, pn_lppp w (fst (pn_split eqs)) = Ok A.
  Proof.
    intros Hw He. unfold pn_lppp, pn_split. cbn [fst].
    assert (E : forallb (fun r => Nat.eqb (length r) (length w)) (map (fun r => removelast r) eqs) = true).
    { apply forallb_forall. intros r Hr. apply in_map_iff in Hr. destruct Hr as (r0 & <- & Hr).
      rewrite removelast_len, (proj1 (Forall_forall _ _) He _ Hr). apply Nat.eqb_eq. lia. }
    rewrite E. eauto.
  Qed.

  Lemma pn_ok_keep s s' : pn_ok s -> ps_ideal s' = ps_ideal s -> ps_nadir s' = ps_nadir s -> ps_pos s' = ps_pos s -> ps_w s' = ps_w s ->
    ps_A s' = ps_A s -> ps_b s' = ps_b s -> (forall x f, ps_po s' = Some (x, f) -> length f = k) -> pn_ok s'.
  Proof.
    intros [H1 H2 H3 H4 H5 H6] E1 E2 E3 E4 E5 E6 E7. constructor; rewrite ?E1, ?E2, ?E3; auto.
    destruct H6 as (pts & extra & eqs & Ep & [A1 A2 A3 A4 A5] & Ex). exists pts, extra, eqs. split; [exact Ep|]. split; [|exact Ex].
    constructor; rewrite ?E1, ?E2, ?E4, ?E5, ?E6; auto.
  Qed.

  Lemma added_ok s s' f x eqs lo hi : pn_ok s -> added e s s' f x eqs lo hi -> pn_ok s'.
  Proof.
    intros [H1 H2 H3 H4 H5 H6] [A1 A2 A3 A4 A5 A6 A7 A8 A9 A10 A11 A12].
    assert (Hf : length f = k) by (eapply H5; eassumption).
    assert (Hm : is_matrix k (ps_pos s ++ [f])) by (apply Forall_app; split; [exact H3|constructor; auto]).
    assert (Hhi := max0_len _ _ Hm A5). assert (Hlo := min0_len _ _ Hm A6).
    assert (Ei : length (ps_ideal s') = k) by (rewrite A8, zipw_length; lia).
    assert (En : length (ps_nadir s') = k) by (rewrite A7, zipw_length; lia).
    constructor; auto.
    - rewrite A3. exact Hm.
    - rewrite A3. destruct (ps_pos s); discriminate.
    - intros x' f' E. destruct A12 as (_ & _ & _ & E'). rewrite E' in E. eauto.
    - exists (ps_pos s ++ [f]), [], eqs. rewrite A3, app_nil_r. split; [reflexivity|]. split; [|auto].
      constructor; auto. eapply HH; eassumption.
  Qed.

  (** A failed continuation: nothing has changed, or the solution has been stored
      and the hull failed, or everything has been updated. *)
  Lemma continue_raise resp s s' er : pn_ok s -> unsatisfied resp = true -> pn_handle_solution e resp s = (s', Raise er) ->
    (s' = s /\ ps_po s = None) \/
    exists x f, ps_po s = Some (x, f) /\ (s' = p_pos s (ps_pos s ++ [f]) /\ (exists er', pe_hull e (ps_pos s ++ [f]) = Raise er') \/
                                          ps_cur s = None /\ exists eqs lo hi, added e s s' f x eqs lo hi).
  Proof.
    intros HO Hs H. pose proof HO as [H1 H2 H3 H4 H5 _]. unfold pn_handle_solution in H. unfold sbind at 1 in H. 
    assert (Eb : match resp with Some d => is_true (pd_sat d) | None => false end = false).
    { unfold unsatisfied in Hs. destruct resp as [d|]; [destruct (is_true (pd_sat d)); [discriminate|]|]; reflexivity. }
    unfold sget in H. rewrite Eb in H. destruct (ps_po s) as [[x f]|] eqn:Epo; [|left; cbn in H; injection H as <- _; auto].
    right. exists x, f. split; [reflexivity|].
    assert (Hf : length f = k) by (eapply H5; reflexivity).
    assert (Hh : length f = length (hd [] (ps_pos s))).
    { destruct (ps_pos s) as [|r m]; [congruence|]. pose proof (Forall_inv H3) as Hr. cbn in *. lia. }
    unfold sbind at 1 in H. unfold lift at 1 in H. cbn [attr snd] in H. rewrite Hh, Nat.eqb_refl in H.
    unfold sbind at 1 in H. unfold lift at 1 in H. unfold sbind at 1 in H. unfold smod at 1 in H.
    unfold sbind at 1 in H. unfold lift at 1 in H. unfold pn_polyhedral in H.
    destruct (pe_hull e (ps_pos s ++ [f])) as [eqs|er'] eqn:EH; [|cbn in H; injection H as <- _; left; split; eauto]. cbn [rbind] in H.
    right. unfold sbind at 1 in H. unfold smod at 1 in H.
    assert (Hm : is_matrix k (ps_pos s ++ [f])) by (apply Forall_app; split; [exact H3|constructor; auto]).
    assert (Hne : exists hi lo, np_max0 (ps_pos s ++ [f]) = Ok hi /\ np_min0 (ps_pos s ++ [f]) = Ok lo).
    { destruct (ps_pos s); cbn; eauto. }
    destruct Hne as (hi & lo & Ehi & Elo). unfold sbind at 1 in H. unfold lift at 1 in H. unfold pn_extremes in H. rewrite Ehi, Elo in H. cbn [rbind] in H.
    unfold sbind at 1 in H. unfold lift at 1 in H. cbn [np_max0 fold_left fst snd] in H. unfold sbind at 1 in H. unfold smod at 1 in H.
    unfold sbind at 1 in H. unfold lift at 1 in H. cbn [np_min0 fold_left fst snd] in H. unfold sbind at 1 in H. unfold smod at 1 in H.
    unfold sbind at 1 in H. unfold lift at 1 in H.
    destruct (weights_ex (zipw nminimum lo (ps_ideal s)) (zipw nmaximum hi (ps_nadir s))) as (w & Ew).
    { rewrite zipw_length, (min0_len _ _ Hm Elo). lia. } { rewrite zipw_length, (max0_len _ _ Hm Ehi). lia. }
    rewrite Ew in H. unfold sbind at 1 in H. unfold smod at 1 in H. unfold sbind at 1 in H. unfold lift at 1 in H.
    destruct (lppp_ex w eqs) as (A & EA); [|eapply HH; eassumption|].
    { eapply weights_len; [| |exact Ew]; rewrite zipw_length. rewrite (min0_len _ _ Hm Elo). lia. rewrite (max0_len _ _ Hm Ehi). lia. }
    rewrite EA in H. unfold sbind at 1 in H. unfold smod at 1 in H. unfold pn_issue, sbind, sget, lift, sret in H.
    cbn [ps_cur p_A p_w p_ideal p_nadir p_b p_pos] in H. destruct (ps_cur s) eqn:Ec; [discriminate|]. cbn [attr] in H. injection H as <- _.
    split; [reflexivity|]. exists eqs, lo, hi. constructor; cbn; auto.
  Qed.

  Lemma iterate_ok_inv q resp s s' out : pn_ok s -> pn_iterate e q resp s = (s', out) -> pn_ok s'.
  Proof.
    intros HO H. destruct q as [ideal nadir pos|cur ideal nadir|ap x f|ap x f]; cbn [pn_iterate] in H.
    - unfold sbind, lift in H. destruct resp as [d|]; cbn [attr] in H; [|injection H as <- _; exact HO].
      destruct out as [rq|er].
      + apply initial_ok in H. destruct H as (q & c & v & a & -> & _). eapply pn_ok_keep; try exact HO; try reflexivity. cbn. apply (ok_po _ HO).
      + apply initial_raise in H. destruct H as (q & c & a & ->). eapply pn_ok_keep; try exact HO; try reflexivity. cbn. apply (ok_po _ HO).
    - set (d := match resp with Some d => d | None => pn_empty end) in *. destruct out as [rq|er].
      + destruct (is_true (pd_show d)) eqn:Es.
        * apply show_ok in H; [|exact Es]. destruct H as (c & x & f & _ & -> & _ & Hp).
          eapply pn_ok_keep; try exact HO; try reflexivity. cbn. intros x' f' E. injection E as <- <-.
          destruct (pe_prob e) as [evaluate minimize|objs decs]; [destruct Hp as (_ & ->); apply HP|].
          destruct Hp as (i & _ & Ei & _). apply nth_error_In in Ei. exact (proj1 (Forall_forall _ _) (proj2 HP) _ Ei).
        * apply handle_ok in H; [|exact Es]. destruct H as (a & c & q & dir & z & _ & _ & _ & _ & _ & -> & _).
          eapply pn_ok_keep; try exact HO; try reflexivity. cbn. apply (ok_po _ HO).
      + apply handle_raise in H. destruct H as (a & q & ->). eapply pn_ok_keep; try exact HO; try reflexivity. cbn. apply (ok_po _ HO).
    - destruct (unsatisfied resp) eqn:Eu.
      + destruct out as [rq|er].
        * apply continue_ok in H; [|exact Eu]. destruct H as (x' & f' & eqs & lo & hi & c & Ha & _). eapply added_ok; eassumption.
        * apply continue_raise in H; [|exact HO|exact Eu]. destruct H as [[-> _]|(x' & f' & Epo & [[-> Hh]|[_ (eqs & lo & hi & Ha)]])]; [exact HO| |eapply added_ok; eassumption].
          destruct HO as [H1 H2 H3 H4 H5 H6]. constructor; cbn [p_pos ps_ideal ps_nadir ps_pos ps_po]; auto.
          -- apply Forall_app; split; [exact H3|constructor; [eauto|constructor]].
          -- destruct (ps_pos s); discriminate.
          -- destruct H6 as (pts & extra & eqs & Ep & [B1 B2 B3 B4 B5] & _). exists pts, (extra ++ [f']), eqs. rewrite Ep, app_assoc.
             split; [reflexivity|]. split; [constructor; cbn; auto|]. right. rewrite <- Ep. exact Hh.
      + destruct resp as [d|]; [|discriminate]. cbn in Eu. destruct (is_true (pd_sat d)) eqn:Es; [|discriminate]. destruct out as [rq|er].
        * apply satisfied_ok in H; [|exact Es]. destruct H as (c & x' & f' & _ & _ & -> & _). exact HO.
        * unfold pn_handle_solution, sbind, sget in H. rewrite Es in H. unfold lift, sret in H.
          destruct (ps_po s) as [[? ?]|]; [|cbn in H; injection H as <- _; exact HO]. cbn [attr] in H.
          destruct (ps_cur s); cbn in H; [discriminate|]. injection H as <- _. exact HO.
    - cbn in H. injection H as <- _. exact HO.
  Qed.
  Lemma step_ok_inv h h' : pn_ok (fst h) -> pn_step e h h' -> pn_ok (fst h').
  Proof. intros HO H. inversion H; subst; cbn [fst] in *; [exact HO|]. eapply iterate_ok_inv; eassumption. Qed.
  Lemma hist_ok_inv h h' : pn_ok (fst h) -> pn_hist e h h' -> pn_ok (fst h').
  Proof. intros HO H. induction H as [h|h h1 h2 H IH Hs]; [exact HO|]. eapply step_ok_inv; [apply IH; exact HO|exact Hs]. Qed.

  Lemma ctor_ok i0 n0 given s0 : length i0 = k -> length n0 = k -> (forall m, given = Some m -> m <> [] /\ is_matrix k m) ->
    pn_ctor e i0 n0 given = Ok s0 -> pn_ok s0 /\ ps_po s0 = None /\ ps_cur s0 = None /\ ps_ref s0 = None /\ ps_speed s0 = None /\
      ps_pos s0 = match pe_prob e with PMO _ _ => match given with Some m => m | None => [] end | PDisc objs _ => objs end /\
      (if any_inf n0 || any_inf i0 then np_max0 (ps_pos s0) = Ok (ps_nadir s0) /\ np_min0 (ps_pos s0) = Ok (ps_ideal s0)
       else ps_nadir s0 = n0 /\ ps_ideal s0 = i0).
  Proof.
    intros Hi Hn Hg H. unfold pn_ctor in H. apply rbind_ok in H. destruct H as (pos & E1 & H).
    assert (Hp : pos <> [] /\ is_matrix k pos /\ pos = match pe_prob e with PMO _ _ => match given with Some m => m | None => [] end | PDisc objs _ => objs end).
    { destruct (pe_prob e); [destruct given as [m|]; [|discriminate]|]; injection E1 as <-.
      - destruct (Hg _ eq_refl). auto.
      - destruct HP. auto. }
    destruct Hp as (Hp1 & Hp2 & Hp3). apply rbind_ok in H. destruct H as (en & E2 & H). apply rbind_ok in H. destruct H as ([A b] & E3 & H).
    apply rbind_ok in H. destruct H as (w & E4 & H). apply rbind_ok in H. destruct H as (A' & E5 & H). injection H as <-. cbn [fst snd] in *.
    assert (He : (if any_inf n0 || any_inf i0 then np_max0 pos = Ok (fst en) /\ np_min0 pos = Ok (snd en) else fst en = n0 /\ snd en = i0)).
    { destruct (any_inf n0 || any_inf i0).
      - unfold pn_extremes in E2. apply rbind_ok in E2. destruct E2 as (hi & E2 & E2'). apply rbind_ok in E2'. destruct E2' as (lo & E2' & E2''). injection E2'' as <-. auto.
      - injection E2 as <-. auto. }
    split; [|cbn; auto 10].
    assert (Hl : length (snd en) = k /\ length (fst en) = k).
    { destruct (any_inf n0 || any_inf i0); destruct He as [H1 H2]; [|subst; auto]. split; [eapply min0_len|eapply max0_len]; eassumption. }
    constructor; cbn; try tauto; [discriminate|].
    unfold pn_polyhedral in E3. apply rbind_ok in E3. destruct E3 as (eqs & E3 & E6). injection E6 as E6 E6'.
    exists pos, [], eqs. rewrite app_nil_r. split; [reflexivity|]. split; [|auto]. constructor; cbn; auto.
    - eapply HH; eassumption.
    - rewrite <- E6 in E5. exact E5.
  Qed.
End Shape.

Section Widen.
  Context {N : NumOps} (OL : OrdLaws N) (e : pn_env N) (k : nat).
  Notation vec := (list N).
  Notation mat := (list (list N)).
  Context (Hk : 2 <= k) (HH : forall pts eqs, pe_hull e pts = Ok eqs -> is_matrix (S k) eqs)
          (HP : match pe_prob e with PMO evaluate _ => forall x, length (evaluate x) = k | PDisc objs decs => objs <> [] /\ is_matrix k objs end)
          (HN : match pe_prob e with PMO evaluate _ => forall x, nan_free (evaluate x) | PDisc objs _ => nan_free_m objs end).

  Record pn_nn (s : pn_state N) : Prop := {
    nn_ideal : nan_free (ps_ideal s); nn_nadir : nan_free (ps_nadir s); nn_pos : nan_free_m (ps_pos s);
    nn_po : forall x f, ps_po s = Some (x, f) -> nan_free f }.

  Lemma zmax_nn a b : nan_free a -> nan_free b -> nan_free (zipw (nmaximum (N:=N)) a b).
  Proof.
    intros Ha. revert b. induction Ha as [|x a Hx Ha IH]; intros [|y b] Hb; try constructor; inversion Hb; subst; auto.
    - destruct (nmaximum_cases x y) as [->| ->]; auto.
    - apply IH; auto.
  Qed.
  Lemma zmin_nn a b : nan_free a -> nan_free b -> nan_free (zipw (nminimum (N:=N)) a b).
  Proof.
    intros Ha. revert b. induction Ha as [|x a Hx Ha IH]; intros [|y b] Hb; try constructor; inversion Hb; subst; auto.
    - destruct (nminimum_cases x y) as [->| ->]; auto.
    - apply IH; auto.
  Qed.
  Lemma zmax_ge a b : nan_free a -> nan_free b -> length a = length b -> vle a (zipw (nmaximum (N:=N)) a b) /\ vle b (zipw (nmaximum (N:=N)) a b).
  Proof.
    intros Ha. revert b. induction Ha as [|x a Hx Ha IH]; intros [|y b] Hb Hl; try discriminate; [split; constructor|].
    inversion Hb; subst. cbn in Hl. destruct (IH b) as [I1 I2]; auto. destruct (nmaximum_le OL x y) as [J1 J2]; auto. split; constructor; auto.
  Qed.
  Lemma zmin_le a b : nan_free a -> nan_free b -> length a = length b -> vle (zipw (nminimum (N:=N)) a b) a /\ vle (zipw (nminimum (N:=N)) a b) b.
  Proof.
    intros Ha. revert b. induction Ha as [|x a Hx Ha IH]; intros [|y b] Hb Hl; try discriminate; [split; constructor|].
    inversion Hb; subst. cbn in Hl. destruct (IH b) as [I1 I2]; auto. destruct (nminimum_le OL x y) as [J1 J2]; auto. split; constructor; auto.
  Qed.
  Lemma fold_max_nn m r : nan_free r -> nan_free_m m -> nan_free (fold_left (zipw (nmaximum (N:=N))) m r).
  Proof. intros Hr Hm. revert r Hr. induction Hm; intros r Hr; [exact Hr|]. cbn. apply IHHm. apply zmax_nn; auto. Qed.
  Lemma fold_min_nn m r : nan_free r -> nan_free_m m -> nan_free (fold_left (zipw (nminimum (N:=N))) m r).
  Proof. intros Hr Hm. revert r Hr. induction Hm; intros r Hr; [exact Hr|]. cbn. apply IHHm. apply zmin_nn; auto. Qed.
  Lemma fold_max_ge_m m : forall r, nan_free r -> nan_free_m m -> is_matrix (length r) m ->
    vle r (fold_left (zipw (nmaximum (N:=N))) m r) /\ forall f, In f m -> vle f (fold_left (zipw (nmaximum (N:=N))) m r).
  Proof.
    induction m as [|a m IH]; intros r Hr Hm Hl.
    - split; [apply vle_refl; auto|intros f []].
    - inversion Hm; inversion Hl; subst. cbn [fold_left].
      destruct (zmax_ge r a) as [Z1 Z2]; [exact Hr|exact H1|congruence|].
      assert (E : length (zipw (nmaximum (N:=N)) r a) = length r) by (rewrite zipw_length; lia).
      destruct (IH (zipw nmaximum r a)) as [I1 I2]; [apply zmax_nn; auto|exact H2|rewrite E; exact H6|].
      split; [eapply vle_trans; eauto|]. intros f [<-|Hf]; [eapply vle_trans; eauto|auto].
  Qed.
  Lemma fold_min_le_m m : forall r, nan_free r -> nan_free_m m -> is_matrix (length r) m ->
    vle (fold_left (zipw (nminimum (N:=N))) m r) r /\ forall f, In f m -> vle (fold_left (zipw (nminimum (N:=N))) m r) f.
  Proof.
    induction m as [|a m IH]; intros r Hr Hm Hl.
    - split; [apply vle_refl; auto|intros f []].
    - inversion Hm; inversion Hl; subst. cbn [fold_left].
      destruct (zmin_le r a) as [Z1 Z2]; [exact Hr|exact H1|congruence|].
      assert (E : length (zipw (nminimum (N:=N)) r a) = length r) by (rewrite zipw_length; lia).
      destruct (IH (zipw nminimum r a)) as [I1 I2]; [apply zmin_nn; auto|exact H2|rewrite E; exact H6|].
      split; [eapply vle_trans; eauto|]. intros f [<-|Hf]; [eapply vle_trans; eauto|auto].
  Qed.
  Lemma max0_spec (m : mat) v : is_matrix k m -> nan_free_m m -> np_max0 m = Ok v -> nan_free v /\ forall f, In f m -> vle f v.
  Proof.
    destruct m as [|r m]; [discriminate|]. intros Hm Hn E. injection E as <-. pose proof (Forall_inv Hm) as Hr; pose proof (Forall_inv_tail Hm) as Ht; inversion Hn; subst. cbn in Hr.
    destruct (fold_max_ge_m m r) as [I1 I2]; [auto|auto|rewrite Hr; exact Ht|]. split; [apply fold_max_nn; auto|]. intros f [<-|Hf]; auto.
  Qed.
  Lemma min0_spec (m : mat) v : is_matrix k m -> nan_free_m m -> np_min0 m = Ok v -> nan_free v /\ forall f, In f m -> vle v f.
  Proof.
    destruct m as [|r m]; [discriminate|]. intros Hm Hn E. injection E as <-. pose proof (Forall_inv Hm) as Hr; pose proof (Forall_inv_tail Hm) as Ht; inversion Hn; subst. cbn in Hr.
    destruct (fold_min_le_m m r) as [I1 I2]; [auto|auto|rewrite Hr; exact Ht|]. split; [apply fold_min_nn; auto|]. intros f [<-|Hf]; auto.
  Qed.

  Definition wider (s s' : pn_state N) : Prop := vle (ps_ideal s') (ps_ideal s) /\ vle (ps_nadir s) (ps_nadir s').
  Definition encloses (s : pn_state N) : Prop := forall f, In f (ps_pos s) -> in_box f (ps_ideal s) (ps_nadir s).
  Lemma wider_same s s' : pn_nn s -> ps_ideal s' = ps_ideal s -> ps_nadir s' = ps_nadir s -> wider s s'.
  Proof. intros [H1 H2 _ _] E1 E2. unfold wider. rewrite E1, E2. split; apply vle_refl; auto. Qed.
  Lemma wider_trans a b c : wider a b -> wider b c -> wider a c.
  Proof. intros [A B] [C D]. split; eapply vle_trans; eauto. Qed.

  Lemma added_wide s s' f x eqs lo hi : pn_ok e k s -> pn_nn s -> added e s s' f x eqs lo hi ->
    pn_nn s' /\ wider s s' /\ encloses s'.
  Proof.
    intros HO HNN [A1 A2 A3 A4 A5 A6 A7 A8 A9 A10 A11 A12].
    destruct HO as [H1 H2 H3 H4 H5 H6]. destruct HNN as [N1 N2 N3 N4].
    assert (Hf : length f = k) by (eapply H5; eassumption).
    assert (Hm : is_matrix k (ps_pos s ++ [f])) by (apply Forall_app; split; [exact H3|constructor; auto]).
    assert (Hn : nan_free_m (ps_pos s ++ [f])) by (apply Forall_app; split; [exact N3|constructor; [eauto|constructor]]).
    destruct (max0_spec _ _ Hm Hn A5) as [M1 M2]. destruct (min0_spec _ _ Hm Hn A6) as [M3 M4].
    destruct (zmax_ge hi (ps_nadir s)) as [Z1 Z2]; auto. { assert (length hi = k) by (eapply max0_len; eassumption). congruence. }
    destruct (zmin_le lo (ps_ideal s)) as [Z3 Z4]; auto. { assert (length lo = k) by (eapply min0_len; eassumption). congruence. }
    rewrite <- A7 in Z1, Z2. rewrite <- A8 in Z3, Z4. destruct A12 as (_ & _ & _ & Ep).
    split; [constructor|].
    - rewrite A8. apply zmin_nn; auto.
    - rewrite A7. apply zmax_nn; auto.
    - rewrite A3. exact Hn.
    - rewrite Ep. exact N4.
    - split; [split; auto|]. intros g Hg. rewrite A3 in Hg. split; [exact (vle_trans OL _ _ _ Z3 (M4 _ Hg))|exact (vle_trans OL _ _ _ (M2 _ Hg) Z1)].
  Qed.

  Lemma iterate_wide q resp s s' out : pn_ok e k s -> pn_nn s -> pn_iterate e q resp s = (s', out) -> pn_nn s' /\ wider s s'.
  Proof.
    intros HO HNN H. destruct q as [ideal nadir pos|cur ideal nadir|ap x f|ap x f]; cbn [pn_iterate] in H.
    - unfold sbind, lift in H. destruct resp as [d|]; cbn [attr] in H; [|injection H as <- _; split; [exact HNN|apply wider_same; auto]].
      destruct out as [rq|er].
      + apply initial_ok in H. destruct H as (q & c & v & a & -> & _). split; [destruct HNN; constructor; assumption|apply wider_same; auto].
      + apply initial_raise in H. destruct H as (q & c & a & ->). split; [destruct HNN; constructor; assumption|apply wider_same; auto].
    - set (d := match resp with Some d => d | None => pn_empty end) in *. destruct out as [rq|er].
      + destruct (is_true (pd_show d)) eqn:Es.
        * apply show_ok in H; [|exact Es]. destruct H as (c & x & f & _ & -> & _ & Hp). split; [|apply wider_same; auto].
          destruct HNN as [N1 N2 N3 N4]; constructor; auto. cbn. intros x' f' E. injection E as <- <-.
          destruct (pe_prob e) as [evaluate minimize|objs decs]; [destruct Hp as (_ & ->); apply HN|].
          destruct Hp as (i & _ & Ei & _). apply nth_error_In in Ei. exact (proj1 (Forall_forall _ _) HN _ Ei).
        * apply handle_ok in H; [|exact Es]. destruct H as (a & c & q & dir & z & _ & _ & _ & _ & _ & -> & _).
          split; [destruct HNN; constructor; assumption|apply wider_same; auto].
      + apply handle_raise in H. destruct H as (a & q & ->). split; [destruct HNN; constructor; assumption|apply wider_same; auto].
    - destruct (unsatisfied resp) eqn:Eu.
      + destruct out as [rq|er].
        * apply continue_ok in H; [|exact Eu]. destruct H as (x' & f' & eqs & lo & hi & c & Ha & _). destruct (added_wide _ _ _ _ _ _ _ HO HNN Ha) as (? & ? & _). auto.
        * eapply continue_raise in H; [|exact Hk|exact HH|exact HO|exact Eu].
          destruct H as [[-> _]|(x' & f' & Epo & [[-> Hh]|[_ (eqs & lo & hi & Ha)]])]; [split; [exact HNN|apply wider_same; auto]| |].
          -- split; [|apply wider_same; auto]. destruct HNN as [N1 N2 N3 N4]. constructor; cbn; auto. apply Forall_app; split; [exact N3|constructor; [eauto|constructor]].
          -- destruct (added_wide _ _ _ _ _ _ _ HO HNN Ha) as (? & ? & _). auto.
      + destruct resp as [d|]; [|discriminate]. cbn in Eu. destruct (is_true (pd_sat d)) eqn:Es; [|discriminate].
        assert (E : s' = s).
        { unfold pn_handle_solution, sbind, sget in H. rewrite Es in H. unfold lift, sret in H.
          destruct (ps_po s) as [[? ?]|]; [|cbn in H; congruence]. cbn [attr] in H. destruct (ps_cur s); cbn in H; congruence. }
        subst. split; [exact HNN|apply wider_same; auto].
    - cbn in H. injection H as <- _. split; [exact HNN|apply wider_same; auto].
  Qed.
  Lemma hist_wide h h' : pn_ok e k (fst h) -> pn_nn (fst h) -> pn_hist e h h' -> pn_ok e k (fst h') /\ pn_nn (fst h') /\ wider (fst h) (fst h').
  Proof.
    intros HO HNN H. induction H as [h|h h1 h2 H IH Hs]; [split; [exact HO|split; [exact HNN|apply wider_same; auto]]|].
    destruct IH as (I1 & I2 & I3); auto. inversion Hs; subst; cbn [fst] in *; [auto|].
    destruct (iterate_wide _ _ _ _ _ I1 I2 H2) as [J1 J2]. split; [|split; [exact J1|eapply wider_trans; eauto]].
    eapply iterate_ok_inv; eauto.
  Qed.

  Lemma ctor_nn i0 n0 given s0 : length i0 = k -> length n0 = k -> (forall m, given = Some m -> m <> [] /\ is_matrix k m) ->
    nan_free i0 -> nan_free n0 -> (forall m, given = Some m -> nan_free_m m) -> pn_ctor e i0 n0 given = Ok s0 -> pn_nn s0.
  Proof.
    intros Hi Hn Hg Ni Nn Ng H. pose proof (ctor_ok e k Hk HH HP _ _ _ _ Hi Hn Hg H) as (HO & Epo & _ & _ & _ & Ep & Ee).
    assert (Np : nan_free_m (ps_pos s0)). { rewrite Ep. destruct (pe_prob e); [destruct given; [auto|constructor]|exact HN]. }
    constructor; auto; [| |rewrite Epo; discriminate].
    - destruct (any_inf n0 || any_inf i0); destruct Ee as [E1 E2]; [|rewrite E2; auto]. eapply min0_spec; [apply (ok_pos _ _ _ HO)|exact Np|exact E2].
    - destruct (any_inf n0 || any_inf i0); destruct Ee as [E1 E2]; [|rewrite E1; auto]. eapply max0_spec; [apply (ok_pos _ _ _ HO)|exact Np|exact E1].
  Qed.
End Widen.
