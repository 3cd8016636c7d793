(** * Pareto Navigator: what an accepted answer can fail with (C107).

    [pn_run] (SParetoNav.v): a session in which every answer was accepted and given to
    the last request, and every call returned a request.  The solvers are
    oracles: a result [Ok None] is "ended without success", [Raise x] an exception of
    the solver itself. *)
From Coq Require Import ZArith List Bool Lia Floats.
From Verif Require Import Num NumF64 Py Np Spec NpFacts MRpm MParetoNav SParetoNav
  PParetoNav PParetoNav2 PParetoNav5 PParetoNav6 PParetoNavF.
Import ListNotations.

Section Vocabulary.
  Context {N : NumOps}.
  (** The search for the solution that belongs to [c] fails with [x]: the scalar
      optimizer raises, or ends without success (ParetoNavigatorException); in a data problem
      there is nothing to choose from (numpy's ValueError). *)
  Definition search_fails (e : pn_env N) (user : bool) (c : pn_point N) (x : exn) : Prop :=
    match pe_prob e with
    | PMO _ minimize =>
        (exists v, c = CVec v /\ (minimize user v = Raise x \/ (minimize user v = Ok None /\ x = MethodExn))) \/
        ((exists y, c = CScalar y) /\ x = TypeErr)
    | PDisc objs decs => x = ValueErr \/ (x = IndexErr /\ length decs < length objs)
    end.
  (** The linear programming solver fails with [x]. *)
  Definition lp_fails (e : pn_env N) (x : exn) : Prop :=
    exists c A b bnds, pe_lp e c A b bnds = Raise x \/ (pe_lp e c A b bnds = Ok None /\ x = MethodExn).
  (** A speed written as text passes the setter ([int("3")]) and cannot be divided. *)
  Definition speed_is_text (d : pn_dict N) : Prop := exists o, pd_speed d = Some (VStr o).
  Definition no_such_solution (pos : list (list N)) (z : pn_index) : Prop :=
    match z with PIdx z => ~ (- Z.of_nat (length pos) <= z < Z.of_nat (length pos))%Z | PBadIdx => True end.
End Vocabulary.

Lemma py_nth_raise {A} (l : list A) z x : py_nth l z = Raise x -> x = IndexErr /\ ~ (- Z.of_nat (length l) <= z < Z.of_nat (length l))%Z.
Proof.
  unfold py_nth, py_pos. intros H.
  destruct ((0 <=? z)%Z && (z <? Z.of_nat (length l))%Z) eqn:E1.
  - exfalso. apply andb_true_iff in E1. destruct E1 as [A1 B1]. apply Z.leb_le in A1. apply Z.ltb_lt in B1.
    destruct (nth_error l (Z.to_nat z)) eqn:En; [discriminate|]. apply nth_error_None in En. lia.
  - destruct ((- Z.of_nat (length l) <=? z)%Z && (z <? 0)%Z) eqn:E2.
    + exfalso. apply andb_true_iff in E2. destruct E2 as [A1 B1]. apply Z.leb_le in A1. apply Z.ltb_lt in B1.
      destruct (nth_error l _) eqn:En in H; [discriminate|]. apply nth_error_None in En. lia.
    + injection H as <-. split; [reflexivity|]. apply andb_false_iff in E1. apply andb_false_iff in E2. 
      rewrite Z.leb_gt, Z.ltb_ge in E1, E2. lia.
Qed.

Section Proofs.
  Context {N : NumOps}.
  Notation vec := (list N).

  Lemma bcast2_raise {A B C} (f : A -> B -> C) a b x : bcast2 f a b = Raise x -> x = ValueErr /\ length a <> length b.
  Proof.
    unfold bcast2. destruct (Nat.eqb_spec (length a) (length b)) as [E|E]; [discriminate|].
    destruct a as [|a0 [|a1 a]], b as [|b0 [|b1 b]]; intros H; try discriminate; injection H as <-; auto.
  Qed.
  Lemma rseq_raise {A} (l : list (res A)) x : rseq l = Raise x -> exists r, In r l /\ r = Raise x.
  Proof.
    induction l as [|r l IH]; [discriminate|]. cbn. destruct r as [a|y]; cbn.
    - destruct (rseq l) as [v|y]; cbn; [discriminate|]. intros H. destruct (IH H) as (r & H1 & H2). eauto.
    - intros H. injection H as <-. eauto.
  Qed.
  Lemma asf_raise (f : vec) c x : simple_asf f c = Raise x -> x = ValueErr.
  Proof.
    unfold simple_asf. destruct c as [q|y]; cbn [rbind].
    - destruct (bcast2 simple_term f q) as [t|z] eqn:E; cbn [rbind].
      + unfold npmax. destruct t; intros H; [injection H as <-; reflexivity|discriminate].
      + apply bcast2_raise in E. destruct E as [-> _]. intros H. injection H as <-. reflexivity.
    - unfold npmax. destruct (map _ f); intros H; [injection H as <-; reflexivity|discriminate].
  Qed.
  Lemma disc_raise objs (c : pn_point N) x : pn_disc objs c = Raise x -> x = ValueErr.
  Proof.
    unfold pn_disc. destruct (rseq _) as [vals|y] eqn:E; cbn [rbind]; intros H.
    - apply npnanargmin_err in H. exact H.
    - injection H as <-. apply rseq_raise in E. destruct E as (r & H1 & ->). apply in_map_iff in H1. destruct H1 as (f & H1 & _). apply asf_raise in H1. exact H1.
  Qed.
  Lemma minimize_raise minimize user (c : pn_point N) x : pn_minimize minimize user c = Raise x ->
    (exists v, c = CVec v /\ (minimize user v = Raise x \/ (minimize user v = Ok None /\ x = MethodExn))) \/ ((exists y, c = CScalar y) /\ x = TypeErr).
  Proof.
    destruct c as [v|y]; cbn.
    - intros H. left. exists v. split; [reflexivity|]. destruct (minimize user v) as [[w|]|z]; cbn in H; [discriminate| |]; injection H as <-; auto.
    - intros H. injection H as <-. right. eauto.
  Qed.
  Lemma speed_raise (v : pyval N) x : pn_check_speed v = Ok tt -> pn_speed_of v = Raise x -> x = TypeErr /\ exists o, v = VStr o.
  Proof. destruct v; cbn; intros H1 H2; try discriminate; injection H2 as <-; eauto. Qed.
End Proofs.

(** The initial answer. *)
Theorem C107_start :
  forall (N : NumOps) (OL : OrdLaws N) (e : pn_env N) G (g : G -> _) g0 A s0 s i n p qs h d s' x,
  pn_run e g g0 A s0 s (PInit i n p :: qs) h -> pn_validate (PInit i n p) d = Ok tt ->
  pn_iterate e (PInit i n p) (Some d) s = (s', Raise x) ->
  (exists q, pd_ref d = Some (RArr q) /\ search_fails e true (CVec q) x) \/
  (exists z, pd_pref d = Some z /\ no_such_solution p z /\ x = IndexErr) \/
  (speed_is_text d /\ x = TypeErr).
Proof.
  intros N OL e G g g0 A s0 s i n p qs h d s' x Hr Hv Hi. destruct (run_shown OL e g g0 A s0 s _ qs h Hr) as (_ & _ & Ep).
  cbn [pn_validate] in Hv. cbn [pn_iterate] in Hi. apply (f_equal snd) in Hi. cbn [snd] in Hi.
  unfold pn_handle_initial, sbind, lift, sget, smod, sret, sraise, pn_issue in Hi. cbn [attr] in Hi.
  destruct (pd_ref d) as [a|] eqn:Er.
  - destruct (pd_pref d) as [z|]; [discriminate|]. apply rbind_ok in Hv. destruct Hv as (u & Hv & Hs).
    destruct u. apply ref_valid_len in Hv. destruct Hv as (q & -> & _). 
    destruct (pn_asf_start (pe_prob e) q) as [c|y] eqn:Ea.
    + right. right. cbn [p_cur p_ref ps_cur] in Hi. destruct (pd_speed d) as [v|] eqn:Ev; [|discriminate]. cbn [key] in Hi.
      destruct (pn_speed_of v) as [sp|y] eqn:Es; [discriminate|]. injection Hi as <-.
      destruct (speed_raise _ _ Hs Es) as (-> & o & ->). split; [exists o; exact Ev|reflexivity].
    + left. injection Hi as <-. exists q. split; [reflexivity|]. unfold search_fails, pn_asf_start in *. destruct (pe_prob e) as [ev mi|objs decs].
      * destruct (pn_minimize mi true (CVec q)) as [w|z] eqn:Em; [discriminate|]. injection Ea as <-. apply minimize_raise in Em. exact Em.
      * destruct (pn_disc objs (CVec q)) as [w|z] eqn:Em; [discriminate|]. injection Ea as <-. apply disc_raise in Em. left; exact Em.
  - destruct (pd_pref d) as [z|] eqn:Ef; [|discriminate]. cbn [rbind] in Hv. cbn [key] in Hi. right.
    destruct z as [z|].
    + destruct (py_nth (ps_pos s) z) as [r|y] eqn:En.
      * right. cbn [p_cur ps_cur] in Hi. destruct (pd_speed d) as [v|] eqn:Ev; [|discriminate]. cbn [key] in Hi.
        destruct (pn_speed_of v) as [sp|y] eqn:Es; [discriminate|]. injection Hi as <-.
        destruct (speed_raise _ _ Hv Es) as (-> & o & ->). split; [exists o; exact Ev|reflexivity].
      * left. injection Hi as <-. apply py_nth_raise in En. destruct En as [-> En]. exists (PIdx z). split; [reflexivity|]. split; [cbn; rewrite Ep; exact En|reflexivity].
    + left. injection Hi as <-. exists PBadIdx. split; [reflexivity|]. split; [exact I|reflexivity].
Qed.
Print Assumptions C107_start.

(** A request to see a solution. *)
Theorem C107_show :
  forall (N : NumOps) (OL : OrdLaws N) (e : pn_env N) G (g : G -> _) g0 A s0 s c i n qs h d s' x,
  pn_run e g g0 A s0 s (PReq c i n :: qs) h -> pn_shows d = true ->
  pn_iterate e (PReq c i n) (Some d) s = (s', Raise x) -> s' = s /\ search_fails e false c x.
Proof.
  intros N OL e G g g0 A s0 s c i n qs h d s' x Hr Hs Hi. destruct (run_shown OL e g g0 A s0 s _ qs h Hr) as (Ec & _).
  cbn [pn_iterate] in Hi. unfold pn_handle in Hi. unfold pn_shows in Hs. rewrite Hs in Hi.
  unfold pn_show, sbind, lift, sget, smod, sret in Hi. rewrite Ec in Hi. cbn [attr] in Hi. unfold search_fails.
  destruct (pe_prob e) as [ev mi|objs decs].
  - destruct (pn_minimize mi false c) as [w|z] eqn:Em; cbn [rbind] in Hi; [discriminate|]. injection Hi as <- <-. split; [reflexivity|]. apply minimize_raise in Em. exact Em.
  - destruct (pn_disc objs c) as [w|z] eqn:Em; cbn [rbind] in Hi.
    + assert (Lw : w < length objs).
      { unfold pn_disc in Em. apply rbind_ok in Em. destruct Em as (vals & E1 & E2). apply rseq_map_ok in E1. apply (npnanargmin_ok OL) in E2. destruct E2 as (v & E2 & _).
        apply Forall2_len in E1. rewrite E1. apply nth_error_Some. rewrite E2. discriminate. }
      destruct (nth_error objs w) as [f|] eqn:Eo; [|apply nth_error_None in Eo; lia]. unfold at_ in Hi. rewrite Eo in Hi. cbn [rbind] in Hi.
      destruct (nth_error decs w) as [xx|] eqn:Ed; cbn [rbind] in Hi; [discriminate|]. injection Hi as <- <-. split; [reflexivity|]. right. apply nth_error_None in Ed. split; [reflexivity|lia].
    + injection Hi as <- <-. split; [reflexivity|]. apply disc_raise in Em. left; exact Em.
Qed.
Print Assumptions C107_show.

Lemma class_raise {N : NumOps} (ideal nadir : list N) c l x : forallb class_ok l = true -> pn_class_ref ideal nadir c l = Raise x ->
  x = IndexErr /\ forall v, c = CVec v -> length ideal < length l \/ length nadir < length l \/ length v < length l.
Proof.
  intros HB H. unfold pn_class_ref in H.
  assert (G : exists j cl, j < length l /\ In cl l /\ pn_class_value ideal nadir c j cl = Raise x).
  { assert (W : forall l a, rseq (zipw (pn_class_value ideal nadir c) (seq a (length l)) l) = Raise x ->
        exists j cl, j < length l /\ In cl l /\ pn_class_value ideal nadir c (a + j) cl = Raise x).
    { clear. induction l as [|cl l IH]; intros a H; [discriminate|]. cbn [length seq] in H. cbn in H.
      destruct (pn_class_value ideal nadir c a cl) as [y|y] eqn:E; cbn in H.
      - destruct (rseq _) as [v|y'] eqn:E' in H; [discriminate|]. cbn in H. rewrite H in E'. apply IH in E'. destruct E' as (j & cl' & Lj & Hin & Hv).
        exists (S j), cl'. cbn [length]. split; [lia|]. split; [right; exact Hin|]. rewrite <- Hv. f_equal; lia.
      - exists 0, cl. cbn [length]. split; [lia|]. split; [left; reflexivity|]. rewrite Nat.add_0_r. congruence. }
    exact (W l 0 H). }
  destruct G as (j & cl & Lj & Hin & Hv). rewrite forallb_forall in HB. specialize (HB _ Hin).
  destruct cl; [| | |discriminate]; cbn [pn_class_value] in Hv; unfold at_ in Hv.
  - destruct (nth_error ideal j) eqn:En; [discriminate|]. injection Hv as <-. apply nth_error_None in En. split; [reflexivity|]. intros v _. lia.
  - destruct (nth_error nadir j) eqn:En; [discriminate|]. injection Hv as <-. apply nth_error_None in En. split; [reflexivity|]. intros v _. lia.
  - destruct c as [v|y].
    + destruct (nth_error v j) eqn:En; [discriminate|]. injection Hv as <-. apply nth_error_None in En. split; [reflexivity|]. intros v' E. injection E as <-. lia.
    + injection Hv as <-. split; [reflexivity|]. intros v E. discriminate.
Qed.
Lemma class_ref_len {N : NumOps} (ideal nadir : list N) c l q : pn_class_ref ideal nadir c l = Ok q -> length q = length l.
Proof. unfold pn_class_ref. intros H. apply rseq_ok in H. apply (f_equal (@length _)) in H. rewrite map_length, zipw_length, seq_length in H. lia. Qed.
(** After the first answer there is a speed. *)
Lemma run_speed {N : NumOps} (OL : OrdLaws N) (e : pn_env N) {G} (g : G -> _) g0 A s0 s q qs h : pn_run e g g0 A s0 s (q :: qs) h ->
  match q with PInit _ _ _ => True | _ => ps_speed s <> None end.
Proof.
  intros H. remember (q :: qs) as l. revert q qs Heql. induction H as [|s q0 qs0 h d s' q' H IH Hv Ha Hi]; intros q qs E; injection E as <- <-; [exact I|].
  specialize (IH _ _ eq_refl). destruct q0 as [i n p|c i n|c x f|c x f]; cbn [pn_iterate] in Hi.
  - unfold sbind, lift in Hi. cbn [attr] in Hi. apply initial_ok in Hi. destruct Hi as (q & c & v & a & -> & -> & _). cbn. discriminate.
  - destruct (is_true (pd_show d)) eqn:Es.
    + apply (show_projects OL) in Hi; [|exact Es]. destruct Hi as (c' & x & f & Hc & -> & -> & Hp). cbn. exact IH.
    + apply handle_ok in Hi; [|exact Es]. destruct Hi as (a & c' & q & dir & z & _ & _ & _ & _ & _ & -> & ->). cbn. discriminate.
  - destruct (is_true (pd_sat d)) eqn:Es.
    + apply satisfied_ok in Hi; [|exact Es]. destruct Hi as (c' & x' & f' & Hc & Hp & -> & ->). exact IH.
    + apply continue_ok in Hi; [|cbn; rewrite Es; reflexivity]. destruct Hi as (x' & f' & eqs & lo & hi & c' & Ha' & Hc & ->).
      destruct Ha' as [A1 A2 A3 A4 A5 A6 A7 A8 A9 A10 A11 (B1 & B2 & B3 & B4)]. congruence.
  - cbn in Hi. injection Hi as <- <-. exact IH.
Qed.

(** A navigation step. *)
Theorem C107_navigation :
  forall (N : NumOps) (OL : OrdLaws N) (e : pn_env N) G (g : G -> _) g0 A s0 s c i n qs h d s' x,
  pn_run e g g0 A s0 s (PReq c i n :: qs) h -> pn_validate (PReq c i n) d = Ok tt -> pn_shows d = false ->
  pn_iterate e (PReq c i n) (Some d) s = (s', Raise x) ->
  (speed_is_text d /\ x = TypeErr) \/
  (pd_ref d = None /\ pd_class d = None /\ ps_ref s = None /\ x = TypeErr) \/
  ((exists y, c = CScalar y) /\ (x = TypeErr \/ x = IndexErr)) \/
  (exists v, c = CVec v /\
     ((exists l, pd_ref d = None /\ pd_class d = Some l /\ (length i < length l \/ length n < length l \/ length v < length l) /\ x = IndexErr) \/
      (length i <> length n /\ x = ValueErr) \/
      ((exists q, pd_ref d = Some (RArr q) /\ length q <> length v) /\ x = ValueErr) \/
      ((exists l, pd_ref d = None /\ pd_class d = Some l /\ length l <> length v) /\ x = ValueErr) \/
      ((exists q, pd_ref d = None /\ pd_class d = None /\ ps_ref s = Some q /\ length q <> length v) /\ x = ValueErr) \/
      lp_fails e x)).
Proof.
  intros N OL e G g g0 A s0 s c i n qs h d s' x Hr Hv Hs Hi. destruct (run_shown OL e g g0 A s0 s _ qs h Hr) as (Ec & -> & ->).
  pose proof (run_speed OL e g g0 A s0 s _ qs h Hr) as Hsp. cbn in Hsp.
  unfold pn_shows in Hs. cbn [pn_iterate] in Hi. apply (f_equal snd) in Hi. cbn [snd] in Hi. rewrite handle_snd in Hi by exact Hs. rewrite Ec in Hi. cbn [attr] in Hi.
  cbn [pn_validate] in Hv. rewrite Hs in Hv. apply rbind_ok in Hv. destruct Hv as ([] & Hsv & Hv).
  destruct (pn_step_of d (ps_speed s)) as [a|y] eqn:Ea; cbn [rbind] in Hi.
  2:{ left. injection Hi as <-. unfold pn_step_of in Ea. destruct (pd_speed d) as [v|] eqn:Ev.
      - destruct (pn_speed_of v) as [sp|y0] eqn:Es; cbn [rbind] in Ea; [discriminate|]. injection Ea as <-.
        destruct (speed_raise _ _ Hsv Es) as (-> & o & ->). split; [exists o; exact Ev|reflexivity].
      - exfalso. destruct (ps_speed s); [discriminate|congruence]. }
  right. destruct (pn_ref_of d s c) as [q|y] eqn:Eq; cbn [rbind] in Hi.
  2:{ injection Hi as <-. unfold pn_ref_of in Eq. destruct (pd_ref d) as [r|] eqn:Er.
      - destruct (pd_class d); [discriminate|]. apply ref_valid_len in Hv. destruct Hv as (q & -> & _). discriminate.
      - destruct (pd_class d) as [l|] eqn:El.
        + right. destruct (forallb class_ok l) eqn:EB; [|discriminate]. destruct (class_raise _ _ _ _ _ EB Eq) as (-> & Hl).
          destruct c as [v|y0]; [|left; split; [eauto|right; reflexivity]].
          right. exists v. split; [reflexivity|]. left. exists l. split; [reflexivity|]. split; [reflexivity|]. split; [exact (Hl v eq_refl)|reflexivity].
        + left. destruct (ps_ref s); [discriminate|]. injection Eq as <-. auto. }
  right. destruct c as [v|y].
  2:{ left. split; [eauto|]. cbn in Hi. injection Hi as <-. left; reflexivity. }
  right. exists v. split; [reflexivity|]. 
  assert (HX : length q <> length v /\ x = ValueErr \/ length (ps_ideal s) <> length (ps_nadir s) /\ x = ValueErr \/ lp_fails e x).
  { unfold pn_direction in Hi. destruct (bcast2 nsub q v) as [dir|y] eqn:Ed; cbn [rbind] in Hi.
    2:{ injection Hi as <-. apply bcast2_raise in Ed. destruct Ed as [-> Ed]. left. auto. }
    destruct (Nat.eq_dec (length q) (length v)) as [El|El].
    - right. rewrite bcast2_eq in Ed by exact El. injection Ed as <-. unfold pn_solve in Hi.
      rewrite bcast2_eq in Hi by (unfold vscale; rewrite map_length, zipw_length; lia). cbn [rbind] in Hi.
      rewrite zipw_length in Hi. unfold vscale in Hi. rewrite map_length, zipw_length in Hi.
      replace (Nat.min (length v) (Nat.min (length q) (length v))) with (length v) in Hi by lia. rewrite Nat.eqb_refl in Hi. cbn [negb] in Hi.
      destruct (Nat.eqb_spec (length (ps_ideal s)) (length (ps_nadir s))) as [E1|E1]; cbn [negb] in Hi.
      + right. match type of Hi with context [pe_lp e ?a ?b ?c0 ?d0] => destruct (pe_lp e a b c0 d0) as [[w|]|y] eqn:Elp end; cbn [rbind] in Hi; [discriminate| |]; injection Hi as <-; repeat eexists; eauto.
      + left. injection Hi as <-. auto.
    - unfold pn_solve in Hi. destruct (bcast2 nadd v (vscale a dir)) as [mv|y] eqn:Em; cbn [rbind] in Hi.
      2:{ injection Hi as <-. apply bcast2_raise in Em. left. split; [exact El|exact (proj1 Em)]. }
      destruct (Nat.eqb (length mv) (length v)); cbn [negb] in Hi; [|injection Hi as <-; auto].
      destruct (Nat.eqb_spec (length (ps_ideal s)) (length (ps_nadir s))) as [E1|E1]; cbn [negb] in Hi; [|injection Hi as <-; auto].
      right. right. match type of Hi with context [pe_lp e ?a ?b ?c0 ?d0] => destruct (pe_lp e a b c0 d0) as [[w|]|y] eqn:Elp end; cbn [rbind] in Hi; [discriminate| |]; injection Hi as <-; repeat eexists; eauto. }
  right. destruct HX as [(Hl & ->)|[HX|HX]]; [|left; exact HX|do 4 right; exact HX]. right.
  unfold pn_ref_of in Eq. destruct (pd_ref d) as [[q0| |]|]; try discriminate.
  - injection Eq as ->. left. eauto.
  - destruct (pd_class d) as [l|].
    + right. left. split; [|reflexivity]. exists l. split; [reflexivity|]. split; [reflexivity|]. apply class_ref_len in Eq. lia.
    + right. right. left. split; [|reflexivity]. exists q. destruct (ps_ref s); [|discriminate]. injection Eq as ->. auto.
Qed.
Print Assumptions C107_navigation.

(** A shown solution that is turned down: only ConvexHull can fail, and its exception is the one raised. *)
Theorem C107_continue :
  forall (N : NumOps) (OL : OrdLaws N) k (e : pn_env N) i0 n0 given s0 G (g : G -> _) g0 A s c x f qs h d s' er,
  pn_wf k e i0 n0 given -> pn_ctor e i0 n0 given = Ok s0 -> pn_run e g g0 A s0 s (PSol c x f :: qs) h ->
  pn_iterate e (PSol c x f) (Some d) s = (s', Raise er) ->
  is_true (pd_sat d) = false /\ pe_hull e (ps_pos s ++ [f]) = Raise er.
Proof.
  intros N OL k e i0 n0 given s0 G g g0 A s c x f qs h d s' er (Hk & L1 & L2 & Hg & HH & HP) HC Hr Hi.
  destruct (ctor_ok e k Hk HH HP i0 n0 given s0 L1 L2 Hg HC) as (HO & _).
  pose proof (hist_ok_inv e k Hk HH HP (s0, []) (s, _) HO (run_hist e g g0 A s0 s _ h Hr)) as HO1. cbn [fst] in HO1.
  destruct (run_shown OL e g g0 A s0 s _ _ h Hr) as (Ec & Ep & _). cbn [pn_iterate] in Hi.
  destruct (is_true (pd_sat d)) eqn:Hs.
  { exfalso. unfold pn_handle_solution, sbind, sget in Hi. rewrite Hs in Hi. unfold lift, sret in Hi. rewrite Ep, Ec in Hi. cbn in Hi. discriminate. }
  split; [reflexivity|].
  destruct (continue_raise e k Hk HH (Some d) s s' er HO1) as [(_ & Hn)|(x' & f' & E & [(_ & (er' & Hn))|(Hn & _)])]; [cbn; rewrite Hs; reflexivity|exact Hi|congruence| |congruence].
  rewrite Ep in E. injection E as <- <-. rewrite Hn. f_equal.
  unfold pn_handle_solution, sbind, sget in Hi. rewrite Hs in Hi. unfold lift, sret in Hi. rewrite Ep in Hi. cbn [attr] in Hi.
  destruct (Nat.eqb (length (snd (x, f))) (length (hd [] (ps_pos s)))) eqn:El.
  - cbn [snd] in Hi. unfold smod in Hi. unfold pn_polyhedral in Hi. rewrite Hn in Hi. cbn [rbind] in Hi. apply (f_equal snd) in Hi. cbn [snd] in Hi. congruence.
  - exfalso. apply Nat.eqb_neq in El. cbn [snd] in El. apply El. destruct HO1 as [H1 H2 H3 H4 H5 H6]. rewrite (H5 _ _ Ep).
    destruct (ps_pos s) as [|r m]; [congruence|]. cbn [hd]. symmetry. exact (Forall_inv H3).
Qed.
Print Assumptions C107_continue.

(** The other direction: a solver that ends without success is reported as
    ParetoNavigatorException. *)
Theorem C107_no_success :
  forall (N : NumOps) (OL : OrdLaws N) (e : pn_env N) G (g : G -> _) g0 A s0 s,
  (forall ev minimize i n p qs h d q, pe_prob e = PMO ev minimize -> pn_run e g g0 A s0 s (PInit i n p :: qs) h ->
     pd_ref d = Some (RArr q) -> minimize true q = Ok None -> snd (pn_iterate e (PInit i n p) (Some d) s) = Raise MethodExn) /\
  (forall ev minimize v i n qs h d, pe_prob e = PMO ev minimize -> pn_run e g g0 A s0 s (PReq (CVec v) i n :: qs) h ->
     pn_shows d = true -> minimize false v = Ok None -> pn_iterate e (PReq (CVec v) i n) (Some d) s = (s, Raise MethodExn)) /\
  (forall v i n qs h d q, pn_run e g g0 A s0 s (PReq (CVec v) i n :: qs) h -> pn_validate (PReq (CVec v) i n) d = Ok tt ->
     pn_shows d = false -> ~ speed_is_text d -> pd_ref d = Some (RArr q) -> length q = length v -> length i = length n ->
     (forall c A b bnds, pe_lp e c A b bnds = Ok None) ->
     snd (pn_iterate e (PReq (CVec v) i n) (Some d) s) = Raise MethodExn).
Proof.
  intros N OL e G g g0 A s0 s. split; [|split].
  - intros ev mi i n p qs h d q Ep Hr Ed Em. cbn [pn_iterate]. unfold pn_handle_initial, sbind, lift, sget, smod. cbn [attr]. rewrite Ed.
    unfold pn_asf_start. rewrite Ep. cbn [pn_minimize]. rewrite Em. reflexivity.
  - intros ev mi v i n qs h d Ep Hr Hs Em. destruct (run_shown OL e g g0 A s0 s _ qs h Hr) as (Ec & _).
    cbn [pn_iterate]. unfold pn_handle. unfold pn_shows in Hs. rewrite Hs. unfold pn_show, sbind, lift, sget. rewrite Ec. cbn [attr]. rewrite Ep.
    cbn [pn_minimize]. rewrite Em. reflexivity.
  - intros v i n qs h d q Hr Hv Hs Ht Ed El El2 Hlp. destruct (run_shown OL e g g0 A s0 s _ qs h Hr) as (Ec & -> & ->).
    pose proof (run_speed OL e g g0 A s0 s _ qs h Hr) as Hsp. cbn in Hsp. cbn [pn_iterate]. rewrite handle_snd by exact Hs. rewrite Ec. cbn [attr].
    cbn [pn_validate] in Hv. unfold pn_shows in Hs. rewrite Hs in Hv. apply rbind_ok in Hv. destruct Hv as ([] & Hsv & _).
    assert (Ea : exists a, pn_step_of d (ps_speed s) = Ok a).
    { unfold pn_step_of. destruct (pd_speed d) as [w|] eqn:Ew.
      - destruct (pn_speed_of w) as [sp|y] eqn:Es; cbn [rbind]; [eauto|]. exfalso. destruct (speed_raise _ _ Hsv Es) as (_ & o & ->). apply Ht. exists o; exact Ew.
      - destruct (ps_speed s); [|congruence]. cbn. eauto. }
    destruct Ea as (a & ->). cbn [rbind]. unfold pn_ref_of. rewrite Ed. cbn [rbind pn_direction]. rewrite bcast2_eq by exact El. cbn [rbind].
    unfold pn_solve. rewrite bcast2_eq by (unfold vscale; rewrite map_length, zipw_length; lia). cbn [rbind].
    rewrite zipw_length. unfold vscale. rewrite map_length, zipw_length.
    replace (Nat.min (length v) (Nat.min (length q) (length v))) with (length v) by lia. rewrite Nat.eqb_refl. cbn [negb].
    rewrite El2, Nat.eqb_refl. cbn [negb]. rewrite Hlp. reflexivity.
Qed.
Print Assumptions C107_no_success.

(** The constructor: a problem that is not a data problem needs solutions to start from. *)
Theorem C107_constructor :
  forall (N : NumOps) (e : pn_env N) i0 n0 given,
  (forall ev mi, pe_prob e = PMO ev mi -> given = None -> pn_ctor e i0 n0 given = Raise MethodExn) /\
  forall x, pn_ctor e i0 n0 given = Raise x ->
    (exists ev mi, pe_prob e = PMO ev mi /\ given = None /\ x = MethodExn) \/ (exists pos, pe_hull e pos = Raise x) \/ x = ValueErr.
Proof.
  intros N e i0 n0 given. split; [intros ev mi E ->; unfold pn_ctor; rewrite E; reflexivity|].
  intros x H. unfold pn_ctor in H.
  match type of H with rbind ?m _ = _ => destruct m as [pos|y] eqn:E1 end; cbn [rbind] in H.
  2:{ left. injection H as <-. destruct (pe_prob e) as [ev mi|objs decs]; [|discriminate]. destruct given; [discriminate|]. injection E1 as <-. eauto. }
  right. clear E1.
  match type of H with rbind ?m _ = _ => destruct m as [en|y] eqn:E1 end; cbn [rbind] in H.
  2:{ right. injection H as <-. destruct (any_inf n0 || any_inf i0); [|discriminate]. unfold pn_extremes, np_max0, np_min0 in E1. destruct pos; cbn in E1; [injection E1 as <-; reflexivity|discriminate]. }
  unfold pn_polyhedral in H. destruct (pe_hull e pos) as [eqs|y] eqn:E2; cbn [rbind] in H; [|left; injection H as <-; eauto].
  right. destruct (pn_weights (snd en) (fst en)) as [w|y] eqn:E3; cbn [rbind] in H.
  2:{ injection H as <-. unfold pn_weights in E3. destruct (bcast2 nsub (fst en) (snd en)) as [dd|z] eqn:E4; cbn [rbind] in E3; [discriminate|]. injection E3 as <-. apply bcast2_raise in E4. exact (proj1 E4). }
  destruct (pn_lppp w (fst (pn_split eqs))) as [M|y] eqn:E4; cbn [rbind] in H; [discriminate|]. injection H as <-. unfold pn_lppp in E4.
  destruct (forallb _ _); [discriminate|]. injection E4 as <-. reflexivity.
Qed.
Print Assumptions C107_constructor.

(** ** A case: two objectives in doubles, solvers that never succeed. *)
Definition x_pos : list (list F64) := ([[0; 1]; [1; 0]; [1; 1]]%float : list (list F64)).
Definition x_eqs : list (list F64) := ([[-1; -1; 1]; [1; 0; -1]; [0; 1; -1]]%float : list (list F64)).
Definition x_i : list F64 := ([0; 0]%float : list F64).
Definition x_n : list F64 := ([1; 1]%float : list F64).
Definition x_e : pn_env F64 := MkPE (PMO (fun _ => x_i) (fun _ _ => Ok None)) (fun _ => Ok x_eqs) (fun _ _ _ _ => Ok None).
Definition x_s0 : pn_state F64 := match pn_ctor x_e x_i x_n (Some x_pos) with Ok s => s | Raise _ => MkPS [] [] [] [] [] [] None None None None end.
Definition x_ans r p sp : pn_dict F64 := MkPD r p sp None None None None.
Definition x_show : pn_dict F64 := MkPD None None None (Some (VBool true)) None None None.
Definition x_q : list F64 := ([0.5; 0.5]%float : list F64).
Definition x_step : pn_state F64 * res (pn_request F64) := pn_iterate x_e (pn_start x_s0) (Some (x_ans None (Some (PIdx 0)) (Some (VInt 5)))) x_s0.
Definition x_s1 : pn_state F64 := fst x_step.
Definition x_r1 : pn_request F64 := PReq (CVec ([0; 1]%float : list F64)) x_i x_n.

Example C107_hypotheses_met :
  pn_wf 2 x_e x_i x_n (Some x_pos) /\ pn_ctor x_e x_i x_n (Some x_pos) = Ok x_s0 /\
  pn_run x_e (fun u _ _ _ => u) tt (fun _ _ => True) x_s0 x_s0 [pn_start x_s0] tt /\
  pn_run x_e (fun u _ _ _ => u) tt (fun _ _ => True) x_s0 x_s1 [x_r1; pn_start x_s0] tt /\
  (* a reference point, an index that does not exist, a speed that is text *)
  snd (pn_iterate x_e (pn_start x_s0) (Some (x_ans (Some (RArr x_q)) None (Some (VInt 5)))) x_s0) = Raise MethodExn /\
  snd (pn_iterate x_e (pn_start x_s0) (Some (x_ans None (Some (PIdx 3)) (Some (VInt 5)))) x_s0) = Raise IndexErr /\
  snd (pn_iterate x_e (pn_start x_s0) (Some (x_ans None (Some (PIdx 0)) (Some (VStr (Some 3%Z))))) x_s0) = Raise TypeErr /\
  pn_validate (pn_start x_s0) (x_ans None (Some (PIdx 0)) (Some (VStr (Some 3%Z)))) = Ok tt /\
  (* then: no direction, a direction, a solution *)
  snd (pn_iterate x_e x_r1 (Some (x_ans None None None)) x_s1) = Raise TypeErr /\
  snd (pn_iterate x_e x_r1 (Some (x_ans (Some (RArr x_q)) None None)) x_s1) = Raise MethodExn /\
  snd (pn_iterate x_e x_r1 (Some x_show) x_s1) = Raise MethodExn.
Proof.
  assert (E : x_step = (x_s1, Ok x_r1)) by (vm_cast_no_check (eq_refl x_step)).
  split; [|split; [vm_cast_no_check (eq_refl (pn_ctor x_e x_i x_n (Some x_pos)))|split; [constructor|split]]].
  3:{ repeat split; match goal with |- ?a = _ => vm_cast_no_check (eq_refl a) end. }
  - split; [lia|]. split; [reflexivity|]. split; [reflexivity|]. split; [|split].
    + intros m Em. injection Em as <-. split; [discriminate|]. repeat constructor.
    + intros pts eqs Em. injection Em as <-. repeat constructor.
    + intros x. reflexivity.
  - apply (pn_run_step x_e (fun u _ _ _ => u) tt (fun _ _ => True) x_s0 x_s0 (pn_start x_s0) [] tt (x_ans None (Some (PIdx 0)) (Some (VInt 5))) x_s1 x_r1).
    + constructor.
    + vm_cast_no_check (@eq_refl (res unit) (Ok tt)).
    + exact I.
    + exact E.
Qed.

(** ** C55 in IEEE doubles *)
(** With integer speeds, in any session in doubles, the size of the step parameter is
    (last speed given) / 5 / 10 as rounded, and that is above 0 and at most the double 0.1. *)
Theorem C55_step_doubles :
  forall (e : pn_env F64) g0 s0 s q qs h, pn_run e next_gear g0 int_speeds s0 s (q :: qs) h -> (forall i n p, q <> PInit i n p) ->
  (1 <= g_speed h <= 5)%Z /\ exists a : F64, ps_speed s = Some a /\ nabs a = ndiv (ndiv (nofZ (g_speed h)) (nofZ 5)) (nofZ 10) /\
    nltb (nofZ 0) (nabs a) = true /\ nleb (nabs a) (0.1%float : F64) = true.
Proof.
  intros e g0 s0 s q qs h Hr Hq. pose proof (run_gearF e g0 int_speeds s0 s q qs h ltac:(auto) Hr) as G.
  assert (GG : gear_okF s h) by (destruct q; [exfalso; eapply Hq; reflexivity|exact G..]). destruct GG as (G1 & G2 & G3). split; [exact G1|].
  exists (fsigned (g_sign h) (g_speed h)). split; [exact G3|]. pose proof (fsigned_abs _ _ G1 G2) as E. split; [exact E|]. rewrite E. apply fstep_range. exact G1.
Qed.
Print Assumptions C55_step_doubles.
Example C55_doubles_hypotheses_met :
  pn_run x_e next_gear (MkGear 0 0) int_speeds x_s0 x_s1 [x_r1; pn_start x_s0] (MkGear 5 1) /\ ps_speed x_s1 = Some (0.1%float : F64).
Proof.
  split; [|vm_cast_no_check (eq_refl (ps_speed x_s1))].
  assert (E : x_step = (x_s1, Ok x_r1)) by (vm_cast_no_check (eq_refl x_step)).
  apply (pn_run_step x_e next_gear (MkGear 0 0) int_speeds x_s0 x_s0 (pn_start x_s0) [] (MkGear 0 0) (x_ans None (Some (PIdx 0)) (Some (VInt 5))) x_s1 x_r1).
  - constructor.
  - vm_cast_no_check (@eq_refl (res unit) (Ok tt)).
  - intros v Ev. cbn in Ev. exists 5%Z. congruence.
  - exact E.
Qed.
