(** * C106: a session can be ended from every request (NAUTILUS Navigator, Reference
    Point Method; NAUTILUS and NAUTILUS 2 are in PropsFinish2, NIMBUS is C94) *)
From Coq Require Import ZArith List Bool Lia Floats Rdefinitions.
From Verif Require Import Num NumXR NumF64 Py Np Spec NpFacts SFinish.
From Verif Require MNavigator SNavigator PNavigator2 PNavigator3 PNavigator6 PropsNavigator MRpm SRpm PRpm PRpm2 PRpm3 PropsRpm MENautilus SENautilus PENautilus PENautilus4 PENautilus5 PropsENautilus MParetoNav SParetoNav PLp PParetoNav5 PParetoNav5 PropsParetoNav.
Import ListNotations.

Section Navigator.
  Import MNavigator SNavigator PNavigator2 PNavigator3 PropsNavigator.
  Definition nv_answers {N : NumOps} (asf : @asf_fn N) (s : nv_state N) (q : nv_request N) (d : nv_dict N) (s' : nv_state N) (q' : nv_request N) : Prop :=
    exists c, q = NReq c /\ nv_validate c d = Ok tt /\ nv_iterate asf q (Some d) s = (s', Ok q').

  (** Whatever has been answered before, failing calls included: the answer that asks to
      stop is accepted and ends the session with the rows (and decision vectors) of the
      reachable solutions of the request. *)
  Theorem C106_navigator :
    forall (N : NumOps) (L : OrdLaws N) k (asf : @asf_fn N) front ideal nadir vars s qs c,
    setup k front ideal nadir vars -> vle ideal nadir -> nv_reach asf front ideal nadir vars s qs -> In (NReq c) qs ->
    ends (nv_answers asf) (fun q => exists rows decs, q = NStop rows decs (nc_idx c) /\
        Forall2 (fun i row => nth_error front i = Some row) (idx_list (nc_idx c)) rows /\
        match vars with
        | None => decs = None
        | Some v => exists xs, decs = Some xs /\ Forall2 (fun i x => nth_error v i = Some x) (idx_list (nc_idx c)) xs
        end) 1 s (NReq c).
  Proof.
    intros N L k asf front ideal nadir vars s qs c Hs HL HR Hin.
    pose proof (ginv_reach L _ _ _ _ _ _ _ _ Hs HR) as G. pose proof (g_reqs _ _ _ _ _ _ _ G _ Hin) as C.
    pose proof (cw_ideal _ _ _ C) as E1. pose proof (cw_nadir _ _ _ C) as E2. rewrite (g_ideal _ _ _ _ _ _ _ G) in E1. rewrite (g_nadir _ _ _ _ _ _ _ G) in E2.
    set (d := MkND (Some nadir) (Some (VInt 1)) (Some (VBool false)) (Some (map (fun _ => None) ideal)) (Some (VBool true)) : nv_dict N).
    assert (V : nv_validate c d = Ok tt).
    { unfold nv_validate, d. cbn [nd_ref nd_speed nd_prev nd_bounds nd_stop]. rewrite E1, E2. destruct Hs as (_ & L1 & L2 & _). unfold bany. rewrite !bcast2_eq by congruence. cbn [rmap].
      assert (A : existsb (fun x : bool => x) (zipw nltb nadir ideal) = false).
      { clear - HL L. induction HL as [|x y a b H _ IH]; [reflexivity|]. cbn [zipw existsb]. rewrite IH, (ol_ltb N L), H, andb_false_r. reflexivity. }
      assert (B : existsb (fun x : bool => x) (zipw (fun x y : N => nltb y x) nadir nadir) = false).
      { clear - L. induction nadir as [|x a IH]; [reflexivity|]. cbn [zipw existsb]. rewrite IH, (ol_ltb N L). destruct (nleb x x); reflexivity. }
      rewrite A, B, map_length, Nat.eqb_refl. reflexivity. }
    destruct (nv_iterate asf (NReq c) (Some d) s) as [s' out] eqn:Ei.
    destruct (C25_stop N L k asf front ideal nadir vars s qs c d s' out Hs HR Hin V eq_refl Ei) as (-> & rows & decs & -> & F1 & F2).
    eapply ends_answer; [exists c; split; [reflexivity|]; split; [exact V|exact Ei]|]. apply ends_now. eauto 6.
  Qed.
End Navigator.
Print Assumptions C106_navigator.

Section Rpm.
  Import MRpm SRpm PRpm PRpm2 PRpm3 PropsRpm.
  Definition rp_answers {N : NumOps} (p : rp_problem N) rho eps ideal nadir (s : rp_state N) (q : rp_request N) (d : rp_dict N) (s' : rp_state N) (q' : rp_request N) : Prop :=
    rp_validate ideal nadir q d = Ok tt /\ rp_iterate p rho eps ideal nadir q (Some d) s = (s', Ok q').
  Definition rp_stops {N : NumOps} (p : rp_problem N) (q : rp_request N) : Prop := exists x g, q = RStop (Some x) (Some g) /\ rp_matches p x g.

  (** A request has just been returned: one answer, to it or to an earlier request, ends
      the session with a solution and its objective vector. *)
  Theorem C106_rpm :
    forall (N : NumOps) (L : OrdLaws N) (p : rp_problem N) rho eps k ideal nadir s qs r d s' f fs f0 fs0,
    rp_wf k p ideal nadir -> rp_reach p rho eps ideal nadir s qs -> In r qs -> rp_validate ideal nadir r d = Ok tt ->
    rp_iterate p rho eps ideal nadir r (Some d) s = (s', Ok (RReq f fs)) -> In (RReq f0 fs0) (RReq f fs :: qs) ->
    ends (rp_answers p rho eps ideal nadir) (rp_stops p) 1 s' (RReq f0 fs0).
  Proof.
    intros N L p rho eps k ideal nadir s qs r d s' f fs f0 fs0 WF R Hin HV HI Hin0.
    set (d' := MkRD None (Some (VBool true)) (Some (VInt 0)) : rp_dict N).
    assert (R' : rp_reach p rho eps ideal nadir s' (RReq f fs :: qs)).
    { eapply (rp_reach_step p rho eps ideal nadir s qs r (Some d) s' (Ok (RReq f fs))); eauto. intros ? E. injection E as <-. exact HV. }
    assert (V : rp_validate ideal nadir (RReq f0 fs0) d' = Ok tt).
    { apply (C40_accepted_indices N L p rho eps k ideal nadir s' _ f0 fs0 d' 0%Z WF R' Hin0 eq_refl eq_refl). lia. }
    destruct (C40_selected N L p rho eps k ideal nadir s qs r d s' f fs d' 0%Z f0 fs0 WF R Hin HV HI Hin0 eq_refl eq_refl V) as (x & g & H1 & _ & H2 & _).
    eapply ends_answer; [split; [exact V|exact H1]|]. apply ends_now. exists x, g. auto.
  Qed.
  Definition ask_nadir {N : NumOps} (nadir : list N) : rp_dict N := MkRD (Some (RArr nadir)) None None.
  Lemma nadir_continues (N : NumOps) (L : OrdLaws N) k (p : rp_problem N) ideal nadir (r : rp_request N) : rp_wf k p ideal nadir -> (forall x g, r <> RStop x g) ->
    rp_validate ideal nadir r (ask_nadir nadir) = Ok tt /\ rp_continues r (ask_nadir nadir) nadir.
  Proof.
    intros WF Hr. split.
    - destruct WF as (Hk & L1 & L2 & _). assert (A : rp_validate_ref (RArr nadir) ideal nadir = Ok tt).
      { cbn [rp_validate_ref]. rewrite L1, L2, Nat.eqb_refl. cbn [negb]. destruct nadir as [|x l]; [cbn in L2; lia|]. cbn [zipw forallb]. rewrite (ol_ltb N L). destruct (nleb x x); reflexivity. }
      destruct r as [|f fs|x g]; [exact A|exact A|]. destruct (Hr x g eq_refl).
    - split; [reflexivity|destruct r as [|f fs|x g]; [exact Logic.I|reflexivity|exact (Hr x g eq_refl)]].
  Qed.
  Lemma continue_ends (N : NumOps) (L : OrdLaws N) (p : rp_problem N) rho eps k ideal nadir s qs r d q s' r' :
    rp_wf k p ideal nadir -> rp_reach p rho eps ideal nadir s qs -> In r qs -> rp_validate ideal nadir r d = Ok tt -> rp_continues r d q ->
    rp_iterate p rho eps ideal nadir r (Some d) s = (s', Ok r') -> ends (rp_answers p rho eps ideal nadir) (rp_stops p) 2 s r.
  Proof.
    intros WF R Hin V C Ei.
    assert (Hq : exists f fs, r' = RReq f fs).
    { destruct (inv_reach L p rho eps k ideal nadir WF s qs R) as [I F]. rewrite Forall_forall in F.
      destruct (continue_iter p rho eps k ideal nadir WF s r d s' _ (F _ Hin) I V Ei) as (v & s1 & Ev & Lv & I1 & _ & E); [destruct C; destruct r; auto|].
      destruct (round_spec L p rho eps k ideal nadir WF s1 v s' _ I1 Lv E) as (_ & _ & w & _ & [(e' & x1 & Ee & _)|(? & x & f & pq & rs & _ & _ & _ & _ & Eo & _)]); [discriminate|]. injection Eo as ->. eauto. }
    destruct Hq as (f & fs & ->).
    eapply ends_answer; [split; [exact V|exact Ei]|]. eapply (C106_rpm N L); eauto. left. reflexivity.
  Qed.
  (** Whatever has been answered before, failing calls included, two answers end it, when
      the solver does not fail. *)
  Theorem C106_rpm_after_failure :
    forall (N : NumOps) (L : OrdLaws N) ev co x0 mi rho eps k ideal nadir s qs r,
    let p : rp_problem N := RMO ev co x0 mi in
    rp_wf k p ideal nadir -> (forall w n u q x0, exists x, mi w n u q x0 = Ok x) -> rp_reach p rho eps ideal nadir s qs -> In r qs ->
    (forall x g, r <> RStop x g) -> ends (rp_answers p rho eps ideal nadir) (rp_stops p) 2 s r.
  Proof.
    intros N L ev co x0 mi rho eps k ideal nadir s qs r p WF HT R Hin Hr.
    destruct (nadir_continues N L k p ideal nadir r WF Hr) as [V C].
    destruct (rp_iterate p rho eps ideal nadir r (Some (ask_nadir nadir)) s) as [s' out] eqn:Ei.
    destruct (C39_continuing_never_fails N L ev co x0 mi rho eps k ideal nadir s qs r _ nadir s' out WF HT R Hin V C Ei) as (r' & ->).
    eapply (continue_ends N L); eauto.
  Qed.
  (** Data with real components. *)
  Theorem C106_rpm_data_after_failure :
    forall objs decs rho eps ideal nadir s qs r,
    0 < length nadir -> length ideal = length nadir -> Forall (fun row => length row = length nadir) objs ->
    length decs = length objs -> objs <> [] -> Forall2 (fun i n => Rdefinitions.Rlt (Rdefinitions.Rminus i eps) n) ideal nadir ->
    let p : rp_problem XR := RDisc (xm objs) decs in
    rp_reach p (Fin rho) (Fin eps) (xv ideal) (xv nadir) s qs -> In r qs -> (forall x g, r <> RStop x g) ->
    ends (rp_answers p (Fin rho) (Fin eps) (xv ideal) (xv nadir)) (rp_stops p) 2 s r.
  Proof.
    intros objs decs rho eps ideal nadir s qs r Hk Li HM Ld Hne Hlt p R Hin Hr.
    assert (WF : rp_wf (length nadir) p (xv ideal) (xv nadir)) by (apply disc_wf; auto).
    destruct (nadir_continues XR XR_ord (length nadir) p (xv ideal) (xv nadir) r WF Hr) as [V C].
    destruct (rp_iterate p (Fin rho : XR) (Fin eps : XR) (xv ideal) (xv nadir) r (Some (ask_nadir (xv nadir : list XR))) s) as [s' out] eqn:Ei.
    destruct (C39_discrete_never_fails objs decs rho eps ideal nadir s qs r _ nadir s' out Hk Li HM Ld Hne Hlt R Hin V C Ei) as (r' & ->).
    eapply (continue_ends XR XR_ord); eauto.
  Qed.
End Rpm.
Print Assumptions C106_rpm.
Print Assumptions C106_rpm_after_failure.
Print Assumptions C106_rpm_data_after_failure.

Section ENautilus.
  Import MENautilus SENautilus PENautilus PENautilus4 PropsENautilus.
  Definition en_replies {N : NumOps} (s : en_state N) (q : en_request N) (d : en_dict N) (s' : en_state N) (q' : en_request N) : Prop :=
    en_validate q d = Ok tt /\ forall km, en_iterate km q (Some d) s = (s', Ok q').

  Lemma issued_max_index (N : NumOps) front (ideal nadir : list N) vars s qs : en_reach front ideal nadir vars s qs ->
    forall mi c, In (EReq mi c) qs -> en_max_index (ec_points c) = Ok mi.
  Proof.
    intros H. induction H as [|s qs q resp km s' out HR IH Hq HV HI]; intros mi c Hin; [destruct Hin as [E|[]]; discriminate|].
    destruct out as [q'|e]; [|eauto]. destruct Hin as [->|Hin]; [|eauto].
    destruct resp as [d|]; [apply (issued_request km q d s s' mi c HI)|].
    destruct q as [a b|mi0 c0|o x]; cbn [en_iterate] in HI; discriminate.
  Qed.
  Lemma shown_accepted (N : NumOps) (pts : list (list N)) mi i p : en_max_index pts = Ok mi -> (0 <= i)%Z -> nth_error pts (Z.to_nat i) = Some p ->
    (i <= Z.of_nat mi)%Z.
  Proof.
    intros H Hi Hp. assert (Z.to_nat i < length pts) by (apply nth_error_Some; congruence).
    destruct pts as [|r [|r' pts]]; cbn in *; [lia| |injection H as <-; lia].
    destruct (Nat.eqb (length r) 1); [discriminate|]. injection H as <-. lia.
  Qed.

  (** Whatever has been answered before, failing calls included: two answers (a step back
      to the request's own points that declares one iteration left, then the choice) end
      the session with any of the points the request shows. *)
  Theorem C106_enautilus :
    forall (N : NumOps) k front (ideal nadir : list N) vars s qs mi c i p,
    is_matrix k front -> front <> [] -> (forall v, vars = Some v -> length v = length front) ->
    en_reach front ideal nadir vars s qs -> In (EReq mi c) qs ->
    (0 <= i)%Z -> nth_error (ec_points c) (Z.to_nat i) = Some p -> length p = k ->
    ends en_replies (fun q => exists x, q = EStop p x /\ (vars = None -> x = None) /\ (forall v, vars = Some v -> exists j y, nth_error v j = Some y /\ x = Some y)) 2 s (EReq mi c).
  Proof.
    intros N k front ideal nadir vars s qs mi c i p HM HN HV HR Hin Hi Hp Lp.
    pose proof (issued_max_index N _ _ _ _ _ _ HR _ _ Hin) as Em. destruct (en_reach_data _ _ _ _ _ _ HR) as (D1 & D2 & D3 & D4).
    set (d1 := MkED None None (Some 0%Z) (Some true) (Some false) (Some 1%Z) None (Some (ec_points c)) (Some (ec_lb c)) (Some (ec_ub c)) (Some (ec_dist c)) : en_dict N).
    set (d2 := MkED None None (Some i) (Some false) (Some false) None None None None None None : en_dict N).
    set (c' := MkEC (es_ideal s) (es_nadir s) (ec_points c) (ec_lb c) (ec_ub c) 1 (ec_dist c)).
    assert (E1 : forall km, en_iterate km (EReq mi c) (Some d1) s = (set_left (Some 1%Z) s, Ok (EReq mi c'))).
    { intros km. cbn. unfold en_handle_request, d1, sbind, lift, smod, sget, key. cbn. unfold en_mk_request. cbn [ec_points]. rewrite Em. reflexivity. }
    assert (Es : exists x, en_stop (set_left (Some 0%Z) (set_pref (Some p) (set_left (Some 1%Z) s))) p = Ok (EStop p x) /\ (vars = None -> x = None) /\ (forall v, vars = Some v -> exists j y, nth_error v j = Some y /\ x = Some y)).
    { unfold en_stop. cbn [set_left set_pref es_vars es_front]. rewrite D4, D1. destruct vars as [v|]; [|exists None; split; [reflexivity|split; [auto|discriminate]]].
      assert (A : rseq (map (fun row => bcast2 nsub row p) front) = Ok (map (fun row => zipw nsub row p) front)).
      { clear - HM Lp. induction HM as [|r m Hr _ IH]; [reflexivity|]. cbn [map rseq]. rewrite bcast2_eq by congruence. cbn [rbind]. rewrite IH. reflexivity. }
      rewrite A. cbn [rbind]. destruct (npargmin (map (fun d => vnorm (map nabs d)) (map (fun row => zipw nsub row p) front))) as [j|e] eqn:Ej.
      - pose proof (npargmin_lt _ _ Ej) as Hj. rewrite !map_length in Hj. rewrite <- (HV v eq_refl) in Hj. cbn [rbind]. unfold at_.
        destruct (nth_error v j) as [y|] eqn:Ey; [|apply nth_error_None in Ey; lia]. exists (Some y). split; [reflexivity|]. split; [discriminate|].
        intros v' E. injection E as <-. eauto.
      - exfalso. destruct front; [congruence|]. discriminate Ej. }
    destruct Es as (x & Es & Ex).
    assert (E2 : forall km, en_iterate km (EReq mi c') (Some d2) (set_left (Some 1%Z) s) = (set_left (Some 0%Z) (set_pref (Some p) (set_left (Some 1%Z) s)), Ok (EStop p x))).
    { intros km. cbn [en_iterate]. unfold en_handle_request. unfold d2. cbn [d_step_back d_index key]. unfold sbind at 1. cbn [lift negb]. unfold sbind at 1. cbn [lift].
      unfold c'. cbn [ec_points]. rewrite (py_nth_of_nth _ _ _ Hi Hp). unfold sbind, lift, smod, sget. change (some_or_type (es_left (set_pref (Some p) (set_left (Some 1%Z) s)))) with (@Ok Z 1%Z). cbn [Z.leb Z.compare Pos.compare Pos.compare_cont]. cbv beta. rewrite Es. reflexivity. }
    apply ends_answer with (d := d1) (s' := set_left (Some 1%Z) s) (q' := EReq mi c'); [split; [reflexivity|exact E1]|]. eapply ends_answer with (d := d2); [split; [|exact E2]|apply ends_now; eauto].
    cbn. pose proof (shown_accepted N _ _ _ _ Em Hi Hp). destruct (Z.ltb_spec i 0); [lia|]. destruct (Z.ltb_spec (Z.of_nat mi) i); [lia|]. reflexivity.
  Qed.
End ENautilus.
Print Assumptions C106_enautilus.

Section ParetoNav.
  Import MParetoNav SParetoNav PropsParetoNav.
  Definition pn_replies {N : NumOps} (e : pn_env N) (s : pn_state N) (q : pn_request N) (d : pn_dict N) (s' : pn_state N) (q' : pn_request N) : Prop :=
    pn_validate q d = Ok tt /\ pn_iterate e q (Some d) s = (s', Ok q').
  Definition say_satisfied {N : NumOps} : pn_dict N := MkPD None None None None None None (Some (VBool true)).
  Definition say_show {N : NumOps} : pn_dict N := MkPD None None None (Some (VBool true)) None None None.

  (** A shown solution: one answer. *)
  Theorem C106_pareto_navigator_shown :
    forall (N : NumOps) (OL : OrdLaws N) (e : pn_env N) G (g : G -> _) g0 A s0 s c x f qs h,
    pn_run e g g0 A s0 s (PSol c x f :: qs) h -> ends (pn_replies e) (fun q => q = PStop c x f) 1 s (PSol c x f).
  Proof.
    intros N OL e G g g0 A s0 s c x f qs h HR. destruct (C73_accept N OL e G g g0 A s0 s c x f qs h say_satisfied HR eq_refl) as [H _].
    eapply ends_answer; [split; [reflexivity|exact H]|]. apply ends_now. reflexivity.
  Qed.
  Lemma shown_ends (N : NumOps) (OL : OrdLaws N) (e : pn_env N) G (g : G -> _) g0 (A : pn_request N -> pn_dict N -> Prop) s0 s c i n qs h x f :
    (forall q d, A q d) -> pn_run e g g0 A s0 s (PReq c i n :: qs) h ->
    snd (pn_iterate e (PReq c i n) (Some say_show) s) = Ok (PSol c x f) -> ends (pn_replies e) (fun q => exists x f, q = PStop c x f) 2 s (PReq c i n).
  Proof.
    intros HA HR H. destruct (pn_iterate e (PReq c i n) (Some say_show) s) as [s' out] eqn:Ei. cbn [snd] in H. subst out.
    apply ends_answer with (d := say_show) (s' := s') (q' := PSol c x f); [split; [reflexivity|exact Ei]|].
    assert (R' : pn_run e g g0 A s0 s' (PSol c x f :: PReq c i n :: qs) (g h (PReq c i n) say_show (PSol c x f))) by (eapply pn_run_step; eauto).
    eapply ends_answer; [split; [reflexivity|exact (proj1 (C73_accept N OL e G g g0 A s0 s' c x f _ _ say_satisfied R' eq_refl))]|]. apply ends_now. eauto.
  Qed.
  (** A navigation request, data: two answers. *)
  Theorem C106_pareto_navigator_data :
    forall k (e : pn_env XR) objs decs G (g : G -> _) g0 s0 s c i n qs h,
    pe_prob e = PDisc (xm objs) decs -> objs <> [] -> length decs = length objs -> Forall (fun r => length r = k) objs -> (0 < k)%nat -> length c = k ->
    pn_run e g g0 (fun _ _ => True) s0 s (PReq (CVec (xv c)) i n :: qs) h ->
    ends (pn_replies e) (fun q => exists x f, q = PStop (CVec (xv c)) x f) 2 s (PReq (CVec (xv c)) i n).
  Proof.
    intros k e objs decs G g g0 s0 s c i n qs h Ep Hne Ld HM Hk Lc HR.
    destruct (C74_show_answered k e objs decs _ _ _ _ _ s c i n qs h say_show Ep Hne Ld HM Hk Lc HR eq_refl) as (x & f & H).
    refine (shown_ends XR XR_ord _ _ _ _ _ _ _ _ _ _ _ _ _ _ _ HR H). intros; exact Logic.I.
  Qed.
  (** ... and a problem whose solver does not fail. *)
  Theorem C106_pareto_navigator_problem :
    forall (N : NumOps) (OL : OrdLaws N) (e : pn_env N) evaluate minimize G (g : G -> _) g0 s0 s c i n qs h,
    pe_prob e = PMO evaluate minimize -> (forall b v, exists x, minimize b v = Ok (Some x)) ->
    pn_run e g g0 (fun _ _ => True) s0 s (PReq (CVec c) i n :: qs) h ->
    ends (pn_replies e) (fun q => exists x f, q = PStop (CVec c) x f) 2 s (PReq (CVec c) i n).
  Proof.
    intros N OL e evaluate minimize G g g0 s0 s c i n qs h Ep HT HR. destruct (HT false c) as (x & Hx).
    refine (shown_ends N OL _ _ _ _ _ _ _ _ _ _ _ _ x (evaluate x) _ HR _); [intros; exact Logic.I|].
    destruct (PParetoNav5.run_shown OL e _ _ _ s0 s _ _ h HR) as (Ec & _).
    cbn [pn_iterate]. unfold pn_handle, say_show. cbn [pd_show is_true truthy]. unfold pn_show, sbind, sget, lift, smod, sret. rewrite Ec. cbn [attr]. rewrite Ep. cbn. rewrite Hx. reflexivity.
  Qed.
End ParetoNav.
Print Assumptions C106_pareto_navigator_shown.
Print Assumptions C106_pareto_navigator_data.
Print Assumptions C106_pareto_navigator_problem.

(** ** Concrete cases *)
Section Cases.
  Import MNavigator SNavigator PNavigator2 PNavigator3 PNavigator6 PropsNavigator.
  Example C106_navigator_hypotheses_met : forall t, exists s c qs,
    setup (N:=XR) 2 (xm nF) (xv nid) (xv nnd) (Some nV) /\ vle (xv nid : list XR) (xv nnd) /\
    nv_session pm_asf (xm nF) (xv nid) (xv nnd) (Some nV) (repeat ndict t) s c /\ nv_reach pm_asf (xm nF) (xv nid) (xv nnd) (Some nV) s qs /\ In (NReq c) qs.
  Proof.
    intros t. destruct (C16_hypotheses_met t) as (s & c & s' & c' & qs & H1 & H2 & _ & H3 & H4 & H5 & _). exists s, c, qs. split; [exact H1|]. split; [|auto].
    destruct H2 as [H2 _]. destruct (xm nF) as [|row m] eqn:E; [discriminate E|]. inversion H2 as [|? ? [A B] _]; subst.
    clear - A B. revert A B. generalize (xv nid : list XR), (xv nnd : list XR), row. induction l as [|a l IH]; intros l0 l1 A B; inversion A; subst; inversion B; subst; constructor.
    - eapply (ol_trans XR XR_ord); eauto.
    - eapply IH; eauto.
  Qed.
End Cases.
Section Cases2.
  Import MRpm SRpm PropsRpm.
  (** After a failed answer, with a solver that always answers and with data. *)
  Definition fP : rp_problem F64 := RMO (fun _ => v2) None x20 (fun _ _ _ _ _ => Ok x20).
  Example C106_rpm_hypotheses_met :
    rp_wf 2 eP eI eN /\ rp_reach eP erho eeps eI eN rp_init [RInit] /\ rp_validate eI eN RInit (e_go v1) = Ok tt /\
    rp_iterate eP erho eeps eI eN RInit (Some (e_go v1)) rp_init = (e_s1, Ok (RReq v2 [v2; v2])) /\
    (** an answer that fails leaves no solution to stop with: *)
    rp_reach eP erho eeps eI eN e_s2 [e_r1; RInit] /\ e_it e_r1 (e_sat 0) e_s2 = (e_s2, Ok (RStop None None)) /\
    rp_wf 2 fP eI eN /\ rp_reach fP erho eeps eI eN rp_init [RInit].
  Proof.
    split; [exact e_wf|]. split; [apply rp_reach_init|]. split; [vm_compute; reflexivity|]. split; [exact e_step1|].
    split; [exact (proj1 (proj2 C66_C104_hypotheses_met))|]. split; [|split; [|apply rp_reach_init]].
    - vm_cast_no_check (eq_refl (e_s2, @Ok (rp_request F64) (RStop None None))).
    - split; [lia|]. repeat split.
  Qed.
End Cases2.
Section Cases3.
  Import MENautilus SENautilus PENautilus PENautilus4 PENautilus5 PropsENautilus.
  Example C106_enautilus_hypotheses_met : exists s mi c p,
    is_matrix 2 (xm dF : list (list XR)) /\ xm dF <> ([] : list (list XR)) /\ length dV = length (xm dF) /\
    en_reach (xm dF) (xv [R0; R0]) (xv dnd) (Some dV) s [EReq mi c; en_start ds0] /\ nth_error (ec_points c) (Z.to_nat 0) = Some (xv p) /\ length (xv p) = 2.
  Proof.
    destruct C01_hypotheses_met as (s1 & mi1 & c1 & s2 & mi2 & c2 & s3 & o & x & p & _ & _ & _ & H1 & _ & _ & _ & _ & H2 & H3 & _).
    exists s1, mi1, c1, p. split; [apply XRFacts.xm_is_matrix; apply dF_len|]. split; [discriminate|]. split; [reflexivity|]. split; [exact H1|]. split; [exact H2|]. unfold xv. rewrite map_length. exact H3.
  Qed.
End Cases3.
Section Cases4.
  Import MRpm MParetoNav SParetoNav PLp PropsParetoNav.
  Example C106_pareto_navigator_hypotheses_met : exists s0 s1 i n h,
    pe_prob ex_e = PDisc (xm ex_P) (xm [[IZR 10]; [IZR 20]; [IZR 30]]) /\ ex_P <> [] /\ Forall (fun r => length r = 2%nat) ex_P /\
    pn_run ex_e next_said (said0 s0) (fun _ _ => True) s0 s1 (PReq (CVec (xv [R0; R1])) i n :: [pn_start s0]) h.
  Proof.
    destruct ex_setting as (s0 & HS & HB & _ & _ & Ep).
    destruct (C72_preferred_start XR ex_e s0 ex_d0 0%Z (VInt 5) (xv [R0; R1]) (Fin (IZR 5 / 50) : XR)) as (_ & s1 & Hi & Hc & Hs & Hf & Hpos);
      [reflexivity..|rewrite Ep; reflexivity|apply PParetoNav5.speed_int|].
    exists s0, s1. do 3 eexists. split; [reflexivity|]. split; [discriminate|]. split; [repeat constructor|].
    econstructor; [constructor| |exact Logic.I|exact Hi]. reflexivity.
  Qed.
End Cases4.
