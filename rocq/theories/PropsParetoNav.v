(** * Properties of Pareto Navigator (C51-C55, C72-C79).

    Vocabulary (SParetoNav.v): [pn_hist] is any history of [start]/[iterate] calls on
    one method object, also with failed calls and with old requests iterated again;
    [pn_run] is a session in which each answer is given to the last request and every
    call returned a request; [next_said] sums up what has been said in the session
    (speed and sign of the last move, reference point, points of the approximation). *)
From Coq Require Import ZArith List Bool Lia Reals Lra Floats ClassicalEpsilon.
From Verif Require Import Num NumXR NumF64 Py Np Spec NpFacts XRFacts PAsf MRpm MParetoNav SParetoNav PLp
  PParetoNav PParetoNav2 PParetoNav3 PParetoNav4 PParetoNav5 PParetoNav6 PParetoNav7 PParetoNav8 PParetoNav9.
Import ListNotations.
Open Scope R_scope.

Lemma rbind_raise {A B} (r : res A) (f : A -> res B) x : rbind r f = Raise x -> r = Raise x \/ exists a, r = Ok a /\ f a = Raise x.
Proof. destruct r as [a|y]; cbn; intros H; [right; eauto|left; congruence]. Qed.

(** ** C51: the linear program *)
(** The arrays that linprog gets, in any state that can be reached: (t, z) satisfies
    the constraints iff z is in the approximation (inside the hull of [pts], between
    ideal and nadir) and t bounds the deviations of z from the point q on top of the
    right-hand side, divided by nadir - ideal.  [pts] are all the solutions, unless
    ConvexHull failed on them. *)
Theorem C51_constraints :
  forall k e i0 n0 given s0 ideal0 nadir0 s qs,
  pn_setting k e i0 n0 given s0 ideal0 nadir0 -> pn_hist e (s0, []) (s, qs) ->
  exists ideal nadir pts extra eqs A b,
    ps_ideal s = xv ideal /\ ps_nadir s = xv nadir /\ Forall2 Rlt ideal nadir /\
    ps_pos s = pts ++ extra /\ pe_hull e pts = Ok (xm eqs) /\ (extra = [] \/ exists er, pe_hull e (ps_pos s) = Raise er) /\
    ps_A s = xm A /\ ps_b s = xv b /\
    forall q t z, length q = k ->
      (feasible A (q ++ b) ((None, None) :: map (fun xy => (Some (fst xy), Some (snd xy))) (combine ideal nadir)) (t :: z) <->
       approximation eqs ideal nadir z /\ deviation_le ideal nadir q z t).
Proof.
  intros k e i0 n0 given s0 ideal0 nadir0 s qs HS H. destruct (setting_facts _ _ _ _ _ _ _ _ HS) as (Hk & HH & HP & HR & HE & HO0 & HL0 & HN0 & HX0).
  destruct (hist_rl e k Hk HH HP HE (s0, []) (s, qs) HO0 HL0 H) as (HO & HL). cbn [fst] in *. pose proof HL as [(ideal & nadir & Ei & En & Hlt) _ _].
  destruct (real_arrays e k Hk HR s ideal nadir HO Ei En Hlt) as (pts & extra & eqs & Ep & Eh & Ex & He & EA & Eb).
  exists ideal, nadir, pts, extra, eqs, (rlpA k ideal nadir eqs), (rlpb eqs). repeat (split; [assumption|]).
  intros q t z Lq. apply (lp_system k); auto.
  - pose proof (ok_ideal _ _ _ HO) as L. rewrite Ei, xv_length in L. exact L.
  - pose proof (ok_nadir _ _ _ HO) as L. rewrite En, xv_length in L. exact L.
Qed.
Print Assumptions C51_constraints.

(** A navigation call that returns a request, after any history: the new solution is
    a point of the approximation with the least maximal scaled deviation from
    current + a * (reference point - current). *)
Theorem C51_min_max :
  forall k e i0 n0 given s0 ideal0 nadir0 s qs c i n d s' q' cu r a,
  pn_setting k e i0 n0 given s0 ideal0 nadir0 -> pn_hist e (s0, []) (s, qs) ->
  pn_shows d = false -> pn_iterate e (PReq c i n) (Some d) s = (s', Ok q') ->
  ps_cur s = Some (CVec (xv cu)) -> ps_ref s' = Some (xv r) -> length r = k -> ps_speed s' = Some (Fin a : XR) ->
  exists ideal nadir pts extra eqs z, ps_ideal s = xv ideal /\ ps_nadir s = xv nadir /\ Forall2 Rlt ideal nadir /\
    ps_pos s = pts ++ extra /\ pe_hull e pts = Ok (xm eqs) /\ (extra = [] \/ exists er, pe_hull e (ps_pos s) = Raise er) /\
    q' = PReq (CVec (xv z)) (xv ideal) (xv nadir) /\ closest eqs ideal nadir (rcomb (1 - a) cu a r) z.
Proof.
  intros k e i0 n0 given s0 ideal0 nadir0 s qs c i n d s' q' cu r a HS H Es Hi Hc Hr Lr Ha.
  destruct (setting_facts _ _ _ _ _ _ _ _ HS) as (Hk & HH & HP & HR & HE & HO0 & HL0 & HN0 & HX0).
  destruct (hist_rl e k Hk HH HP HE (s0, []) (s, qs) HO0 HL0 H) as (HO & HL). cbn [fst] in *. destruct HS as (_ & _ & _ & HLP & _).
  destruct (nav_closest e k Hk HR d s s' q' cu r a HLP HO HL Es Hi Hc Hr Lr Ha) as (_ & ideal & nadir & pts & extra & eqs & z & K1 & K2 & K3 & K4 & K5 & K6 & _ & K8 & _ & K10).
  exists ideal, nadir, pts, extra, eqs, z. auto 10.
Qed.
Print Assumptions C51_min_max.

(** The same in the terms of a session: the request that is answered shows [c], ideal
    and nadir; the points are those shown at the start and the solutions that were
    shown and not accepted; reference point and step come from the answers. *)
Theorem C51_session :
  forall k e i0 n0 given s0 ideal0 nadir0 s c i n qs h d s' q',
  pn_setting k e i0 n0 given s0 ideal0 nadir0 ->
  pn_run e next_said (said0 s0) (pn_answers k) s0 s (PReq c i n :: qs) h ->
  pn_validate (PReq c i n) d = Ok tt -> pn_answers k (PReq c i n) d -> pn_shows d = false ->
  pn_iterate e (PReq c i n) (Some d) s = (s', Ok q') ->
  exists ideal nadir eqs cu r z, c = CVec (xv cu) /\ i = xv ideal /\ n = xv nadir /\ Forall2 Rlt ideal nadir /\
    pe_hull e (sd_points h) = Ok (xm eqs) /\
    sd_target (next_said h (PReq c i n) d q') = Some (xv r) /\ q' = PReq (CVec (xv z)) i n /\
    let a := step_of (sd_gear (next_said h (PReq c i n) d q')) in closest eqs ideal nadir (rcomb (1 - a) cu a r) z.
Proof.
  intros k e i0 n0 given s0 ideal0 nadir0 s c i n qs h d s' q' HS Hr Hv An Es Hi.
  destruct (session_nav k e i0 n0 given s0 ideal0 nadir0 (pn_answers k) s c i n qs h d s' q' HS ltac:(auto) Hr Hv An Es Hi)
    as (ideal & nadir & eqs & cu & r & z & K1 & K2 & K3 & K4 & _ & _ & _ & _ & K5 & K6 & K7 & K8).
  exists ideal, nadir, eqs, cu, r, z. auto 10.
Qed.
Print Assumptions C51_session.

(** ** C52: ideal and nadir *)
(** Whatever happens after whatever history, in floating point too: the ideal never
    rises and the nadir never falls. *)
Theorem C52_widens :
  forall (N : NumOps) (OL : OrdLaws N) k (e : pn_env N) i0 n0 given s0 s qs s' qs',
  pn_wf k e i0 n0 given -> pn_numbers e i0 n0 given -> pn_ctor e i0 n0 given = Ok s0 ->
  pn_hist e (s0, []) (s, qs) -> pn_hist e (s, qs) (s', qs') ->
  vle (ps_ideal s') (ps_ideal s) /\ vle (ps_nadir s) (ps_nadir s').
Proof.
  intros N OL k e i0 n0 given s0 s qs s' qs' (Hk & L1 & L2 & Hg & HH & HP) (M1 & M2 & M3 & M4) HC H1 H2.
  destruct (ctor_ok e k Hk HH HP i0 n0 given s0 L1 L2 Hg HC) as (HO & _).
  pose proof (ctor_nn OL e k Hk HH HP M4 i0 n0 given s0 L1 L2 Hg M1 M2 M3 HC) as HN.
  destruct (hist_wide OL e k Hk HH HP M4 (s0, []) (s, qs) HO HN H1) as (HO1 & HN1 & _). cbn [fst] in *.
  destruct (hist_wide OL e k Hk HH HP M4 (s, qs) (s', qs') HO1 HN1 H2) as (_ & _ & W). exact W.
Qed.
Print Assumptions C52_widens.

(** After a shown solution has been turned down, all solutions, also those given at
    the start, lie between ideal and nadir, then and for ever. *)
Theorem C52_encloses :
  forall (N : NumOps) (OL : OrdLaws N) k (e : pn_env N) i0 n0 given s0 s qs c x f resp s1 q1 qs1 s' qs' g,
  pn_wf k e i0 n0 given -> pn_numbers e i0 n0 given -> pn_ctor e i0 n0 given = Ok s0 ->
  pn_hist e (s0, []) (s, qs) -> (forall d, resp = Some d -> is_true (pd_sat d) = false) ->
  pn_iterate e (PSol c x f) resp s = (s1, Ok q1) -> pn_hist e (s1, qs1) (s', qs') -> In g (ps_pos s1) ->
  in_box g (ps_ideal s') (ps_nadir s').
Proof.
  intros N OL k e i0 n0 given s0 s qs c x f resp s1 q1 qs1 s' qs' g (Hk & L1 & L2 & Hg & HH & HP) (M1 & M2 & M3 & M4) HC H1 Hs Hi H2 Hin.
  destruct (ctor_ok e k Hk HH HP i0 n0 given s0 L1 L2 Hg HC) as (HO & _).
  pose proof (ctor_nn OL e k Hk HH HP M4 i0 n0 given s0 L1 L2 Hg M1 M2 M3 HC) as HN.
  destruct (hist_wide OL e k Hk HH HP M4 (s0, []) (s, qs) HO HN H1) as (HO1 & HN1 & _). cbn [fst] in *. cbn [pn_iterate] in Hi.
  assert (HO2 : pn_ok e k s1) by (eapply iterate_ok_inv with (q := PSol c x f); eauto).
  assert (U : unsatisfied resp = true) by (destruct resp as [d|]; cbn; [rewrite (Hs _ eq_refl)|]; reflexivity).
  destruct (continue_ok e resp s s1 q1 U Hi) as (x' & f' & eqs & lo & hi & c' & Ha & _ & _).
  destruct (added_wide OL e k Hk s s1 f' x' eqs lo hi HO1 HN1 Ha) as (HN2 & _ & He).
  destruct (hist_wide OL e k Hk HH HP M4 (s1, qs1) (s', qs') HO2 HN2 H2) as (_ & _ & W1 & W2). cbn [fst] in *.
  destruct (He _ Hin) as (B1 & B2). split; eapply (vle_trans OL); eassumption.
Qed.
Print Assumptions C52_encloses.
(** In a session the solution that was shown is the one that is added. *)
Theorem C52_adds_shown :
  forall (N : NumOps) (OL : OrdLaws N) (e : pn_env N) G (g : G -> _) g0 A s0 s c x f qs h d s1 q1,
  pn_run e g g0 A s0 s (PSol c x f :: qs) h -> is_true (pd_sat d) = false ->
  pn_iterate e (PSol c x f) (Some d) s = (s1, Ok q1) -> ps_pos s1 = ps_pos s ++ [f] /\ q1 = PReq c (ps_ideal s1) (ps_nadir s1).
Proof.
  intros N OL e G g g0 A s0 s c x f qs h d s1 q1 Hr Hs Hi. pose proof (run_shown OL e g g0 A s0 s _ qs h Hr) as (Ec & Epo & _).
  cbn [pn_iterate] in Hi. destruct (continue_ok e (Some d) s s1 q1) as (x' & f' & eqs & lo & hi & c' & Ha & Hc & ->); [cbn; rewrite Hs; reflexivity|exact Hi|].
  destruct Ha as [D1 _ D3 _ _ _ _ _ _ _ _ _]. rewrite Epo in D1. injection D1 as <- <-. rewrite Ec in Hc. injection Hc as <-. auto.
Qed.
Print Assumptions C52_adds_shown.

(** ** C53: forward and back *)
(** An answer without a step back moves along the direction to the reference point:
    the target is current + a * (reference point - current) with 0 < a <= 0.1. *)
Theorem C53_forward :
  forall k e i0 n0 given s0 ideal0 nadir0 s c i n qs h d s' q',
  pn_setting k e i0 n0 given s0 ideal0 nadir0 ->
  pn_run e next_said (said0 s0) (pn_answers k) s0 s (PReq c i n :: qs) h ->
  pn_validate (PReq c i n) d = Ok tt -> pn_answers k (PReq c i n) d -> pn_shows d = false -> pn_back d = false ->
  pn_iterate e (PReq c i n) (Some d) s = (s', Ok q') ->
  exists ideal nadir eqs cu r z a, 0 < a <= 1/10 /\ c = CVec (xv cu) /\ i = xv ideal /\ n = xv nadir /\ pe_hull e (sd_points h) = Ok (xm eqs) /\
    sd_target (next_said h (PReq c i n) d q') = Some (xv r) /\ q' = PReq (CVec (xv z)) i n /\ closest eqs ideal nadir (rcomb (1 - a) cu a r) z.
Proof.
  intros k e i0 n0 given s0 ideal0 nadir0 s c i n qs h d s' q' HS Hr Hv An Es Eb Hi.
  destruct (session_nav k e i0 n0 given s0 ideal0 nadir0 (pn_answers k) s c i n qs h d s' q' HS ltac:(auto) Hr Hv An Es Hi)
    as (ideal & nadir & eqs & cu & r & z & K1 & K2 & K3 & K4 & _ & _ & _ & _ & K5 & K6 & K7 & K8).
  pose proof (run_said_gear e k s0 (pn_answers k) s _ qs h ltac:(auto) Hr) as G. cbn in G.
  pose proof (gear_step e (PReq c i n) d s s' q' (sd_gear h) ltac:(intros; discriminate) G Hv (proj1 (proj2 An)) Hi) as (G1 & _ & _).
  exists ideal, nadir, eqs, cu, r, z, (step_of (sd_gear (next_said h (PReq c i n) d q'))).
  split; [|auto 10]. unfold step_of. cbn [next_said sd_gear]. rewrite K7 in *. cbn [next_gear g_sign g_speed] in *. rewrite Eb.
  destruct G1 as [G1 G2]. apply IZR_le in G1, G2. lra.
Qed.
Print Assumptions C53_forward.
(** Where the session is, in terms of the gear: the sign of a move is -1 for a step
    back that gives a speed or follows a forward move. *)
Definition steps_back (h : pn_said XR) (d : pn_dict XR) : Prop := pn_back d = true /\ (pd_speed d <> None \/ g_sign (sd_gear h) = 1%Z).
(** Such a step back moves against the direction.  Missing: a step back that gives no
    speed after a step back, see the next theorem. *)
Theorem C53_back_partial :
  forall k e i0 n0 given s0 ideal0 nadir0 s c i n qs h d s' q',
  pn_setting k e i0 n0 given s0 ideal0 nadir0 ->
  pn_run e next_said (said0 s0) (pn_answers k) s0 s (PReq c i n :: qs) h ->
  pn_validate (PReq c i n) d = Ok tt -> pn_answers k (PReq c i n) d -> pn_shows d = false -> steps_back h d ->
  pn_iterate e (PReq c i n) (Some d) s = (s', Ok q') ->
  exists ideal nadir eqs cu r z a, - (1/10) <= a < 0 /\ c = CVec (xv cu) /\ i = xv ideal /\ n = xv nadir /\ pe_hull e (sd_points h) = Ok (xm eqs) /\
    sd_target (next_said h (PReq c i n) d q') = Some (xv r) /\ q' = PReq (CVec (xv z)) i n /\ closest eqs ideal nadir (rcomb (1 - a) cu a r) z.
Proof.
  intros k e i0 n0 given s0 ideal0 nadir0 s c i n qs h d s' q' HS Hr Hv An Es (Eb & Hb) Hi.
  destruct (session_nav k e i0 n0 given s0 ideal0 nadir0 (pn_answers k) s c i n qs h d s' q' HS ltac:(auto) Hr Hv An Es Hi)
    as (ideal & nadir & eqs & cu & r & z & K1 & K2 & K3 & K4 & _ & _ & _ & _ & K5 & K6 & K7 & K8).
  pose proof (run_said_gear e k s0 (pn_answers k) s _ qs h ltac:(auto) Hr) as G. cbn in G.
  pose proof (gear_step e (PReq c i n) d s s' q' (sd_gear h) ltac:(intros; discriminate) G Hv (proj1 (proj2 An)) Hi) as (G1 & _ & _).
  exists ideal, nadir, eqs, cu, r, z, (step_of (sd_gear (next_said h (PReq c i n) d q'))).
  split; [|auto 10]. unfold step_of. cbn [next_said sd_gear]. rewrite K7 in *. cbn [next_gear g_sign g_speed] in *. rewrite Eb.
  assert (E : match pd_speed d with Some _ => (-1)%Z | None => (- g_sign (sd_gear h))%Z end = (-1)%Z) by (destruct (pd_speed d); [reflexivity|destruct Hb as [Hb|Hb]; [congruence|rewrite Hb; reflexivity]]).
  rewrite E. destruct G1 as [G1 G2]. apply IZR_le in G1, G2. lra.
Qed.
Print Assumptions C53_back_partial.
(** Refuted otherwise: a step back without a speed that follows a step back moves
    along the direction, like an answer that asks for no step back at all. *)
Theorem C53_back_refuted :
  forall k e i0 n0 given s0 ideal0 nadir0 s c i n qs h d s' q',
  pn_setting k e i0 n0 given s0 ideal0 nadir0 ->
  pn_run e next_said (said0 s0) (pn_answers k) s0 s (PReq c i n :: qs) h ->
  pn_validate (PReq c i n) d = Ok tt -> pn_answers k (PReq c i n) d -> pn_shows d = false ->
  pn_back d = true -> pd_speed d = None -> g_sign (sd_gear h) = (-1)%Z ->
  pn_iterate e (PReq c i n) (Some d) s = (s', Ok q') ->
  exists ideal nadir eqs cu r z a, 0 < a <= 1/10 /\ c = CVec (xv cu) /\ i = xv ideal /\ n = xv nadir /\ pe_hull e (sd_points h) = Ok (xm eqs) /\
    sd_target (next_said h (PReq c i n) d q') = Some (xv r) /\ q' = PReq (CVec (xv z)) i n /\ closest eqs ideal nadir (rcomb (1 - a) cu a r) z.
Proof.
  intros k e i0 n0 given s0 ideal0 nadir0 s c i n qs h d s' q' HS Hr Hv An Es Eb Ev Eg Hi.
  destruct (session_nav k e i0 n0 given s0 ideal0 nadir0 (pn_answers k) s c i n qs h d s' q' HS ltac:(auto) Hr Hv An Es Hi)
    as (ideal & nadir & eqs & cu & r & z & K1 & K2 & K3 & K4 & _ & _ & _ & _ & K5 & K6 & K7 & K8).
  pose proof (run_said_gear e k s0 (pn_answers k) s _ qs h ltac:(auto) Hr) as G. cbn in G.
  pose proof (gear_step e (PReq c i n) d s s' q' (sd_gear h) ltac:(intros; discriminate) G Hv (proj1 (proj2 An)) Hi) as (G1 & _ & _).
  exists ideal, nadir, eqs, cu, r, z, (step_of (sd_gear (next_said h (PReq c i n) d q'))).
  split; [|auto 10]. unfold step_of. cbn [next_said sd_gear]. rewrite K7 in *. cbn [next_gear g_sign g_speed] in *. rewrite Eb, Ev, Eg in *.
  destruct G1 as [G1 G2]. apply IZR_le in G1, G2. change (- -1)%Z with 1%Z. lra.
Qed.
Print Assumptions C53_back_refuted.

(** ** C54: classifications *)
(** The reference point that an accepted classification stands for, read off the
    request that is answered: ideal for "<", nadir for ">", the current value for "=". *)
Theorem C54_mapping :
  forall (N : NumOps) (OL : OrdLaws N) (e : pn_env N) G (g : G -> _) g0 A s0 s c i n qs h d l s' q',
  pn_run e g g0 A s0 s (PReq (CVec c) i n :: qs) h -> pn_shows d = false -> pd_ref d = None -> pd_class d = Some l ->
  pn_iterate e (PReq (CVec c) i n) (Some d) s = (s', Ok q') ->
  exists r, ps_ref s' = Some r /\ length r = length l /\
    forall j, (nth_error l j = Some CLess -> nth_error r j = nth_error i j) /\
              (nth_error l j = Some CGreater -> nth_error r j = nth_error n j) /\
              (nth_error l j = Some CEqual -> nth_error r j = nth_error c j).
Proof.
  intros N OL e G g g0 A s0 s c i n qs h d l s' q' Hr Es Er El Hi. destruct (run_shown OL e g g0 A s0 s _ qs h Hr) as (Ec & Ei & En).
  cbn [pn_iterate] in Hi. apply handle_ok in Hi; [|exact Es]. destruct Hi as (a & c' & q & dir & z & _ & E2 & E3 & _ & _ & -> & ->).
  unfold pn_ref_of in E3. rewrite Er, El in E3. rewrite Ec in E2. injection E2 as <-. destruct (class_ref_spec _ _ _ _ _ E3) as (Hl & Hs).
  exists q. cbn. split; [reflexivity|]. split; [exact Hl|]. subst i n. intros j.
  assert (HH : forall cl, nth_error l j = Some cl -> exists x, nth_error q j = Some x).
  { intros cl E. apply nth_ex. rewrite Hl. eapply nth_lt; eassumption. }
  repeat split; intros E; destruct (HH _ E) as (x & Ex); specialize (Hs _ _ _ E Ex); cbn in Hs; congruence.
Qed.
Print Assumptions C54_mapping.
(** In a session that starts from one of the given solutions, the reference point of
    a classification lies between ideal and nadir.  Missing: sessions that start from
    a reference point, see C54_in_box_refuted. *)
Theorem C54_in_box_partial :
  forall k e i0 n0 given s0 ideal0 nadir0 G (g : G -> _) g0 s c i n qs h d l s' q',
  pn_setting k e i0 n0 given s0 ideal0 nadir0 -> encloses0 s0 ->
  pn_run e g g0 (pn_plays k) s0 s (PReq c i n :: qs) h ->
  pn_shows d = false -> pd_ref d = None -> pd_class d = Some l -> length l = k ->
  pn_iterate e (PReq c i n) (Some d) s = (s', Ok q') ->
  exists r, ps_ref s' = Some r /\ in_box r i n.
Proof.
  intros k e i0 n0 given s0 ideal0 nadir0 G g g0 s c i n qs h d l s' q' HS HB Hr Es Er El Ll Hi.
  destruct (setting_facts _ _ _ _ _ _ _ _ HS) as (Hk & HH & HP & HR & HE & HO0 & HL0 & HN0 & HX0). destruct HS as (_ & _ & _ & HLP & HD).
  destruct (run_shown XR_ord e g g0 _ s0 s _ qs h Hr) as (Ec & Ei & En).
  destruct (run_fin e k s0 Hk HLP HH HP HR HE HD HO0 HL0 HN0 g g0 _ s _ h (fun q d X => proj1 X) Hr) as (J1 & J2 & J3).
  destruct (run_boxed e k s0 Hk HLP HH HP HR HE HD HO0 HL0 HN0 HB g g0 (pn_plays k) s _ h (fun q d X => X) Hr _ Ec) as (v & -> & Hv).
  cbn [pn_iterate] in Hi. apply handle_ok in Hi; [|exact Es]. destruct Hi as (a & c' & q & dir & z & _ & E2 & E3 & _ & _ & -> & ->).
  unfold pn_ref_of in E3. rewrite Er, El in E3. rewrite Ec in E2. injection E2 as <-. exists q. split; [reflexivity|]. subst i n.
  pose proof J2 as [(ideal & nadir & Ei & En & Hlt) _ _].
  eapply (class_in_box XR_ord); [| |rewrite Ll; symmetry; apply (ok_ideal _ _ _ J1)|exact E3]; [|exact Hv].
  rewrite Ei, En. apply rlt_vle. exact Hlt.
Qed.
Print Assumptions C54_in_box_partial.
(** The setter takes classifications of any length... *)
Theorem C54_length_refuted :
  forall (N : NumOps) (c : pn_point N) i n l, forallb class_ok l = true ->
  pn_validate (PReq c i n) (MkPD None None None None None (Some l) None) = Ok tt.
Proof. intros N c i n l H. cbn. rewrite H. reflexivity. Qed.
Print Assumptions C54_length_refuted.
(** ... and a single one is silently used for all objectives: with two objectives,
    "<" alone moves both values towards the ideal of the first objective. *)
Theorem C54_single_refuted :
  forall (e : pn_env XR) s c1 c2 m1 m2 nadir A b a, 
  ps_cur s = Some (CVec (xv [c1; c2])) -> ps_ideal s = xv [m1; m2] -> ps_nadir s = xv nadir -> length nadir = 2%nat -> ps_speed s = Some (Fin a : XR) ->
  ps_A s = A -> ps_b s = b ->
  snd (pn_iterate e (PReq (CVec (xv [c1; c2])) (xv [m1; m2]) (xv nadir)) (Some (MkPD None None None None None (Some [CLess]) None)) s) =
  (do o <- pe_lp e (xv [1; 0; 0]) A (xv [c1 + Rabs a * (m1 - c1); c2 + Rabs a * (m1 - c2)] ++ b)
             ((None, None) :: map (fun xy => (Some (fst xy), Some (snd xy))) (combine (xv [m1; m2] : list XR) (xv nadir)));
   match o with Some x => Ok (PReq (CVec (tl x)) (xv [m1; m2]) (xv nadir)) | None => Raise MethodExn end).
Proof.
  intros e s c1 c2 m1 m2 nadir A b a Ec Em En Ln Ea <- <-. cbn [pn_iterate]. rewrite handle_snd by reflexivity.
  unfold pn_step_of. cbn [pd_speed pd_back is_true]. rewrite Ea, Ec. cbn [attr rbind]. unfold pn_ref_of. cbn [pd_ref pd_class]. rewrite Em, En.
  change (pn_class_ref (xv [m1; m2] : list XR) (xv nadir) (CVec (xv [c1; c2])) [CLess]) with (Ok [Fin m1 : XR]). cbn [rbind].
  change (pn_direction (CVec (xv [c1; c2] : list XR)) [Fin m1 : XR]) with (Ok (xv [m1 - c1; m1 - c2] : list XR)). cbn [rbind].
  unfold pn_solve. change (length (xv [c1; c2])) with 2%nat.
  change (@nabs XR (Fin a : XR)) with (Fin (Rabs a) : XR).
  change (bcast2 (@nadd XR) (xv [c1; c2]) (vscale (N:=XR) (Fin (Rabs a)) (xv [m1 - c1; m1 - c2]))) with (Ok (xv [c1 + Rabs a * (m1 - c1); c2 + Rabs a * (m1 - c2)]) : res (list XR)).
  cbn [rbind]. rewrite (xv_length nadir), Ln. change (length (xv [m1; m2])) with 2%nat.
  change (length (xv [c1 + Rabs a * (m1 - c1); c2 + Rabs a * (m1 - c2)])) with 2%nat. cbn [Nat.eqb negb].
  change (@nofZ XR 1 :: repeat (@nofZ XR 0) 2) with (xv [1; 0; 0]).
  destruct (pe_lp e _ _ _ _) as [[x|]|er]; reflexivity.
Qed.
Print Assumptions C54_single_refuted.

(** ** C55: speeds *)
(** The initial request takes a speed v iff int(v) is 1, 2, 3, 4 or 5; so does a
    navigation request, which may also get none. *)
Theorem C55_accepted :
  forall (N : NumOps) (i n : list N) p c idx v,
  (pn_validate (PInit i n p) (MkPD None (Some idx) (Some v) None None None None) = Ok tt <-> exists z, py_int v = Some z /\ (1 <= z <= 5)%Z) /\
  (pn_validate (PReq c i n) (MkPD None None (Some v) None None None None) = Ok tt <-> exists z, py_int v = Some z /\ (1 <= z <= 5)%Z) /\
  pn_validate (PInit i n p) (MkPD None (Some idx) None None None None None) = Raise MethodExn /\
  pn_validate (PReq c i n) (MkPD None None None None None None None) = Ok tt.
Proof.
  intros N i n p c idx v. repeat split; try (cbn; reflexivity); cbn -[pn_check_speed]; intros H.
  - apply check_speed_range. exact H.
  - apply check_speed_range. exact H.
  - apply check_speed_range. destruct (pn_check_speed v); cbn in H; [destruct a; reflexivity|discriminate].
  - apply check_speed_range in H. rewrite H. reflexivity.
Qed.
Print Assumptions C55_accepted.
(** With integer speeds, in any session, the step parameter is positive or negative
    and its size is (last speed given) / 50, which is in (0, 0.1]. *)
Theorem C55_step :
  forall e g0 s0 s q qs h, pn_run e next_gear g0 int_speeds s0 s (q :: qs) h -> (forall i n p, q <> PInit i n p) ->
  (1 <= g_speed h <= 5)%Z /\ exists a, ps_speed s = Some (Fin a : XR) /\ Rabs a = IZR (g_speed h) / 50 /\ 0 < Rabs a <= 1/10.
Proof.
  intros e g0 s0 s q qs h Hr Hq. pose proof (run_gear e g0 int_speeds s0 s q qs h ltac:(auto) Hr) as G.
  assert (GG : gear_ok s h) by (destruct q; [exfalso; eapply Hq; reflexivity|exact G..]). destruct GG as (G1 & G2 & G3). split; [exact G1|].
  eexists. split; [exact G3|]. destruct G1 as [H1 H2]. apply IZR_le in H1, H2.
  assert (E : Rabs (IZR (g_sign h) * IZR (g_speed h) / 50) = IZR (g_speed h) / 50).
  { destruct G2 as [-> | ->]; [rewrite Rabs_right; lra|rewrite Rabs_left; lra]. }
  rewrite E. lra.
Qed.
Print Assumptions C55_step.
(** Refuted for other accepted values: a numeric string is accepted and the call that
    uses it raises TypeError; 5.9 is accepted and gives a step above 0.1. *)
Theorem C55_string_refuted :
  forall (N : NumOps) (e : pn_env N) i n p s z idx r, (1 <= z <= 5)%Z -> py_nth (ps_pos s) idx = Ok r ->
  let d := MkPD None (Some (PIdx idx)) (Some (VStr (Some z))) None None None None in
  pn_validate (PInit i n p) d = Ok tt /\ snd (pn_iterate e (PInit i n p) (Some d) s) = Raise TypeErr.
Proof.
  intros N e i n p s z idx r Hz Hn d. split.
  - apply C55_accepted; [constructor 2; exact (nofZ 0)|]. exists z. auto.
  - cbn. unfold pn_handle_initial, sbind, sget, lift, key. cbn [pd_ref pd_pref d attr]. rewrite Hn. reflexivity.
Qed.
Print Assumptions C55_string_refuted.
Theorem C55_fraction_refuted :
  forall (e : pn_env XR) i n p (s : pn_state XR) idx r, py_nth (ps_pos s) idx = Ok r ->
  let d := MkPD None (Some (PIdx idx)) (Some (VFloat (Fin (59/10) : XR) (Some 5%Z))) None None None None : pn_dict XR in
  pn_validate (PInit i n p) d = Ok tt /\ exists s' q' a, pn_iterate e (PInit i n p) (Some d) s = (s', Ok q') /\ ps_speed s' = Some (Fin a : XR) /\ 1/10 < a.
Proof.
  intros e i n p s idx r Hn d. split.
  - apply C55_accepted; [constructor 2; exact (Fin 0)|]. exists 5%Z. split; [reflexivity|lia].
  - cbn [pn_iterate]. unfold pn_handle_initial, pn_issue, smod, sbind, sget, lift, sret, key. cbn [pd_ref pd_pref d attr pd_speed]. rewrite Hn.
    unfold pn_speed_of. cbn [rbind]. do 2 eexists. exists (59 / 10 / 5 / 10). split; [reflexivity|]. split; [|lra]. cbn [ps_speed p_speed]. f_equal.
    change (@nofZ XR 5) with (Fin 5 : XR). change (@nofZ XR 10) with (Fin 10 : XR).
    change (@ndiv XR (Fin (59/10)) (Fin 5)) with (xdiv (Fin (59/10)) (Fin 5)). rewrite xdiv_fin by lra.
    change (xdiv (Fin (59 / 10 / 5)) (Fin 10) = Fin (59 / 10 / 5 / 10)). rewrite xdiv_fin by lra. reflexivity.
Qed.
Print Assumptions C55_fraction_refuted.

(** ** C72: where the navigation starts *)
(** A preferred solution (counted as Python counts, from the end if negative) that
    exists: the navigation starts from that row of the solutions shown. *)
Theorem C72_preferred_start :
  forall (N : NumOps) (e : pn_env N) s d z v r sp, pd_ref d = None -> pd_pref d = Some (PIdx z) -> pd_speed d = Some v ->
  py_nth (ps_pos s) z = Ok r -> pn_speed_of v = Ok sp ->
  pn_start s = PInit (ps_ideal s) (ps_nadir s) (ps_pos s) /\
  exists s', pn_iterate e (pn_start s) (Some d) s = (s', Ok (PReq (CVec r) (ps_ideal s) (ps_nadir s))) /\
    ps_cur s' = Some (CVec r) /\ ps_speed s' = Some sp /\ ps_ref s' = ps_ref s /\ ps_pos s' = ps_pos s.
Proof.
  intros N e s d z v r sp E1 E2 E3 E4 E5. split; [reflexivity|]. unfold pn_start. cbn [pn_iterate].
  unfold pn_handle_initial, pn_issue, smod, sbind, sget, lift, sret, key. cbn [attr]. rewrite E1, E2, E3. rewrite E4. rewrite E5. cbn. eexists. split; [reflexivity|]. auto.
Qed.
Print Assumptions C72_preferred_start.
(** Refuted for a reference point: the request shows, as current solution, not an
    objective vector but the decision vector of the solution found ... *)
Theorem C72_reference_start_refuted :
  forall (N : NumOps) (e : pn_env N) s d evaluate minimize q x v sp,
  pe_prob e = PMO evaluate minimize -> pd_ref d = Some (RArr q) -> minimize true q = Ok (Some x) -> pd_speed d = Some v -> pn_speed_of v = Ok sp ->
  snd (pn_iterate e (pn_start s) (Some d) s) = Ok (PReq (CVec x) (ps_ideal s) (ps_nadir s)).
Proof.
  intros N e s d evaluate minimize q x v sp E0 E1 E2 E3 E4. unfold pn_start. cbn [pn_iterate].
  unfold pn_handle_initial, pn_issue, smod, sbind, sget, lift, sret, key. cbn [attr]. rewrite E1. rewrite E0. cbn. rewrite E2. cbn. rewrite E3. cbn. rewrite E4. reflexivity.
Qed.
Print Assumptions C72_reference_start_refuted.
(** ... and for a data problem the row number, after which every navigation answer
    that gives a direction raises an exception. *)
Theorem C72_data_start_refuted :
  forall (N : NumOps) (e : pn_env N) s d objs decs q i v sp,
  pe_prob e = PDisc objs decs -> pd_ref d = Some (RArr q) -> pn_disc objs (CVec q) = Ok i -> pd_speed d = Some v -> pn_speed_of v = Ok sp ->
  exists s', pn_iterate e (pn_start s) (Some d) s = (s', Ok (PReq (CScalar (nofZ (Z.of_nat i))) (ps_ideal s) (ps_nadir s))) /\
    forall d', pn_shows d' = false -> exists x, snd (pn_iterate e (PReq (CScalar (nofZ (Z.of_nat i))) (ps_ideal s) (ps_nadir s)) (Some d') s') = Raise x.
Proof.
  intros N e s d objs decs q i v sp E0 E1 E2 E3 E4. unfold pn_start. cbn [pn_iterate].
  unfold pn_handle_initial, pn_issue, smod, sbind, sget, lift, sret, key. cbn [attr]. rewrite E1. rewrite E0. unfold pn_asf_start. rewrite E2. cbn [rbind]. rewrite E3, E4.
  eexists. split; [reflexivity|]. intros d' Es. rewrite handle_snd by exact Es. cbn [ps_cur p_cur p_speed attr].
  destruct (pn_step_of d' _) as [a|er]; cbn [rbind]; [|eauto]. destruct (pn_ref_of d' _ _) as [q'|er]; cbn [rbind]; [|eauto].
  cbn [pn_direction rbind pn_solve]. eauto.
Qed.
Print Assumptions C72_data_start_refuted.

(** ** C73: the solutions shown *)
(** A solution shown in a session belongs to the approximate solution of the request
    before: for a data problem it is a row with the least achievement value with
    respect to it, otherwise it is what the scalar optimizer found, evaluated. *)
Theorem C73_shown_solution :
  forall (N : NumOps) (OL : OrdLaws N) (e : pn_env N) G (g : G -> _) g0 A s0 s c x f q qs h,
  pn_run e g g0 A s0 s (PSol c x f :: q :: qs) h -> pn_projects e c x f /\ exists i n, q = PReq c i n.
Proof.
  intros N OL e G g g0 A s0 s c x f q qs h Hr. split; [apply (run_shown OL e g g0 A s0 s _ _ h Hr)|].
  inversion Hr as [|s1 q1 qs1 h1 d1 s1' q1' H Hv Ha Hi E1 E2 E3]. subst. pose proof (run_shown OL e g g0 A s0 s1 _ _ _ H) as Hs.
  pose proof (iterate_shown OL e q d1 s1 s (PSol c x f) Hs Hi) as (_ & Hm). destruct q; try contradiction. subst. eauto.
Qed.
Print Assumptions C73_shown_solution.
(** The final solution is the solution that was shown and accepted. *)
Theorem C73_stop :
  forall (N : NumOps) (OL : OrdLaws N) (e : pn_env N) G (g : G -> _) g0 A s0 s c x f qs h,
  pn_run e g g0 A s0 s (PStop c x f :: qs) h -> In (PSol c x f) qs /\ pn_projects e c x f.
Proof.
  intros N OL e G g g0 A s0 s c x f qs h Hr. split; [|apply (run_shown OL e g g0 A s0 s _ _ h Hr)].
  remember (PStop c x f :: qs) as l eqn:El. revert qs El. induction Hr as [|s q qs h d s' q' H IH Hv Ha Hi]; intros qs0 El; [discriminate|].
  injection El as -> <-. pose proof (run_shown OL e g g0 A s0 s _ _ _ H) as Hs. pose proof (iterate_shown OL e q d s s' _ Hs Hi) as (_ & Hm).
  destruct q as [|c' i n|c' x' f'|c' x' f']; try contradiction.
  - destruct Hm as (-> & -> & -> & _). left. reflexivity.
  - destruct Hm as (-> & -> & -> & _). right. apply (IH qs). reflexivity.
Qed.
Print Assumptions C73_stop.
(** An accepted solution ends the session with it; the method object is not touched. *)
Theorem C73_accept :
  forall (N : NumOps) (OL : OrdLaws N) (e : pn_env N) G (g : G -> _) g0 A s0 s c x f qs h d,
  pn_run e g g0 A s0 s (PSol c x f :: qs) h -> is_true (pd_sat d) = true ->
  pn_iterate e (PSol c x f) (Some d) s = (s, Ok (PStop c x f)) /\ forall r, pn_iterate e (PStop c x f) r s = (s, Ok (PStop c x f)).
Proof.
  intros N OL e G g g0 A s0 s c x f qs h d Hr Hs. destruct (run_shown OL e g g0 A s0 s _ _ h Hr) as (Ec & Ep & _). split; [|reflexivity].
  cbn [pn_iterate]. unfold pn_handle_solution, sbind, sget, lift. rewrite Hs, Ep. cbn [attr]. rewrite Ec. reflexivity.
Qed.
Print Assumptions C73_accept.

(** ** C74: answers are answered *)
(** With an exact convex hull, an exact and total linprog and an initial box that
    encloses the given solutions: as long as the current solution has k components
    and a direction has been given, every accepted navigation answer is followed by
    a navigation request.  Missing: sessions that start from a reference point with a
    number of variables other than k (C72), and answers before a direction is given. *)
Theorem C74_navigation_answered_partial :
  forall k e i0 n0 given s0 ideal0 nadir0 s c i n qs h d,
  pn_setting k e i0 n0 given s0 ideal0 nadir0 -> encloses0 s0 -> hull_exact k (pe_hull e) -> lp_total (pe_lp e) ->
  pn_run e next_said (said0 s0) (pn_answers k) s0 s (PReq (CVec c) i n :: qs) h -> length c = k ->
  pn_validate (PReq (CVec c) i n) d = Ok tt -> pn_answers k (PReq (CVec c) i n) d -> pn_shows d = false ->
  sd_target h <> None \/ pd_ref d <> None \/ pd_class d <> None ->
  exists z, snd (pn_iterate e (PReq (CVec c) i n) (Some d) s) = Ok (PReq (CVec (xv z)) i n).
Proof.
  intros k e i0 n0 given s0 ideal0 nadir0 s c i n qs h d HS HB HX HT Hr Lc Hv An Es Hd.
  destruct (setting_facts _ _ _ _ _ _ _ _ HS) as (Hk & HH & HP & HR & HE & HO0 & HL0 & HN0 & HX0). pose proof HS as (_ & _ & _ & HLP & HD).
  destruct (run_shown XR_ord e _ _ _ s0 s _ qs h Hr) as (Ec & Ei & En).
  destruct (run_fin e k s0 Hk HLP HH HP HR HE HD HO0 HL0 HN0 next_said _ _ s _ h (fun q d X => X) Hr) as (J1 & J2 & J3).
  destruct (run_said e k s0 Hk HLP HH HP HR HE HD HO0 HL0 HN0 _ s _ h (fun q d X => X) Hr) as (T1 & T2).
  destruct (run_encloses k e i0 n0 given s0 ideal0 nadir0 next_said _ _ s _ h HS HB Hr) as (_ & _ & J4).
  pose proof (run_said_gear e k s0 (pn_answers k) s _ qs h ltac:(auto) Hr) as (_ & _ & G).
  destruct (fin_cur _ _ J3 _ Ec) as (v & ->). rewrite xv_length in Lc.
  destruct (nav_total e k Hk HR HX HT d s (CVec (xv v)) i n v J1 J2 J3 Ec Lc) as (z & Hz); auto.
  - rewrite G. discriminate.
  - apply (run_hull e k s0 HH next_said _ _ s _ h HX0 Hr).
  - subst i. apply (ok_ideal _ _ _ J1).
  - unfold has_direction. rewrite T1. exact Hd.
  - cbn [pn_iterate]. destruct (pn_handle e d s) as [s' o] eqn:EE. cbn [snd] in Hz. subst o.
    destruct (session_nav k e i0 n0 given s0 ideal0 nadir0 _ s _ i n qs h d s' _ HS (fun q d X => X) Hr Hv An Es EE) as (ideal & nadir & eqs & cu & r & zz & _ & _ & _ & _ & _ & _ & _ & _ & _ & _ & E & _).
    exists zz. rewrite E. reflexivity.
Qed.
Print Assumptions C74_navigation_answered_partial.
(** Refuted without a direction: after a preferred solution was chosen, an answer
    with neither a reference point nor classifications is accepted and raises TypeError. *)
Theorem C74_no_direction_refuted :
  forall (N : NumOps) (OL : OrdLaws N) (e : pn_env N) s c i n d G (g : G -> _) g0 A s0 qs h,
  pn_run e g g0 A s0 s (PReq c i n :: qs) h -> ps_ref s = None ->
  pn_shows d = false -> pd_ref d = None -> pd_class d = None -> (pd_speed d = None -> ps_speed s <> None) ->
  (forall v, pd_speed d = Some v -> pn_check_speed v = Ok tt) ->
  pn_validate (PReq c i n) d = Ok tt /\ snd (pn_iterate e (PReq c i n) (Some d) s) = Raise TypeErr.
Proof.
  intros N OL e s c i n d G g g0 A s0 qs h Hr Er Es E1 E2 E3 E4. split.
  - cbn [pn_validate]. unfold pn_shows in Es. rewrite Es, E1, E2. destruct (pd_speed d) as [v|]; [rewrite (E4 _ eq_refl)|]; reflexivity.
  - destruct (run_shown OL e g g0 A s0 s _ qs h Hr) as (Ec & _). cbn [pn_iterate]. rewrite handle_snd by exact Es. rewrite Ec. cbn [attr].
    unfold pn_step_of. destruct (pd_speed d) as [v|].
    + destruct v; cbn [pn_speed_of rbind]; unfold pn_ref_of; rewrite ?E1, ?E2, ?Er; reflexivity.
    + destruct (ps_speed s); [|specialize (E3 eq_refl); congruence]. cbn [attr rbind]. unfold pn_ref_of. rewrite E1, E2, Er. reflexivity.
Qed.
Print Assumptions C74_no_direction_refuted.
(** A solution that is turned down: the session goes on iff ConvexHull succeeds. *)
Theorem C74_continue :
  forall (N : NumOps) (OL : OrdLaws N) k (e : pn_env N) i0 n0 given s0 G (g : G -> _) g0 A s c x f qs h d,
  pn_wf k e i0 n0 given -> pn_ctor e i0 n0 given = Ok s0 -> pn_run e g g0 A s0 s (PSol c x f :: qs) h -> is_true (pd_sat d) = false ->
  match snd (pn_iterate e (PSol c x f) (Some d) s) with
  | Ok q => exists i n eqs, q = PReq c i n /\ pe_hull e (ps_pos s ++ [f]) = Ok eqs
  | Raise _ => exists er, pe_hull e (ps_pos s ++ [f]) = Raise er
  end.
Proof.
  intros N OL k e i0 n0 given s0 G g g0 A s c x f qs h d (Hk & L1 & L2 & Hg & HH & HP) HC Hr Hs.
  destruct (ctor_ok e k Hk HH HP i0 n0 given s0 L1 L2 Hg HC) as (HO & _).
  pose proof (hist_ok_inv e k Hk HH HP (s0, []) (s, _) HO (run_hist e g g0 A s0 s _ h Hr)) as HO1. cbn [fst] in HO1.
  destruct (run_shown OL e g g0 A s0 s _ _ h Hr) as (Ec & Ep & _).
  destruct (pn_iterate e (PSol c x f) (Some d) s) as [s' [q|er]] eqn:Hi; cbn [snd]; cbn [pn_iterate] in Hi.
  - destruct (continue_ok e (Some d) s s' q) as (x' & f' & eqs & lo & hi & c' & Ha & Hc & ->); [cbn; rewrite Hs; reflexivity|exact Hi|].
    destruct Ha as [D1 _ _ D4 _ _ _ _ _ _ _ _]. rewrite Ep in D1. injection D1 as <- <-. rewrite Ec in Hc. injection Hc as <-. eauto.
  - destruct (continue_raise e k Hk HH (Some d) s s' er HO1) as [(_ & Hn)|(x' & f' & E & [(_ & Hn)|(Hn & _)])]; [cbn; rewrite Hs; reflexivity|exact Hi|congruence| |congruence].
    rewrite Ep in E. injection E as <- <-. exact Hn.
Qed.
Print Assumptions C74_continue.

(** ** C75: a navigation answer that fails *)
(** A navigation call that raises leaves the solutions, ideal, nadir, the current
    solution and the linear program as they were (it may have stored the speed and
    the reference point); and the next answer that gives a speed and a direction has
    exactly the effect it would have had without the failed call. *)
Theorem C75_failed_answer :
  forall (N : NumOps) (e : pn_env N) c i n d s s' x,
  pn_iterate e (PReq c i n) (Some d) s = (s', Raise x) ->
  (ps_ideal s' = ps_ideal s /\ ps_nadir s' = ps_nadir s /\ ps_pos s' = ps_pos s /\ ps_cur s' = ps_cur s /\ ps_A s' = ps_A s /\ ps_b s' = ps_b s /\ ps_po s' = ps_po s) /\
  forall d', pn_shows d' = false -> pd_speed d' <> None -> pd_ref d' <> None \/ pd_class d' <> None ->
    snd (pn_iterate e (PReq c i n) (Some d') s') = snd (pn_iterate e (PReq c i n) (Some d') s) /\
    forall s'' q', pn_iterate e (PReq c i n) (Some d') s = (s'', Ok q') -> pn_iterate e (PReq c i n) (Some d') s' = (s'', Ok q').
Proof.
  intros N e c i n d s s' x H. cbn [pn_iterate] in *. destruct (handle_raise e d s s' x H) as (a & q & ->).
  split; [cbn; auto 10|]. intros d' Es Ev Ed. apply handle_overwrites; assumption.
Qed.
Print Assumptions C75_failed_answer.

(** ** C76, C77: quality of a navigation step *)
(** No point of the approximation is better than the new solution in every objective. *)
Theorem C76_weakly_optimal :
  forall k e i0 n0 given s0 ideal0 nadir0 s c i n qs h d s' q',
  pn_setting k e i0 n0 given s0 ideal0 nadir0 ->
  pn_run e next_said (said0 s0) (pn_answers k) s0 s (PReq c i n :: qs) h ->
  pn_validate (PReq c i n) d = Ok tt -> pn_answers k (PReq c i n) d -> pn_shows d = false ->
  pn_iterate e (PReq c i n) (Some d) s = (s', Ok q') ->
  exists ideal nadir eqs z, i = xv ideal /\ n = xv nadir /\ pe_hull e (sd_points h) = Ok (xm eqs) /\ q' = PReq (CVec (xv z)) i n /\
    approximation eqs ideal nadir z /\ forall z', approximation eqs ideal nadir z' -> ~ Forall2 Rlt z' z.
Proof.
  intros k e i0 n0 given s0 ideal0 nadir0 s c i n qs h d s' q' HS Hr Hv An Es Hi.
  destruct (session_nav k e i0 n0 given s0 ideal0 nadir0 (pn_answers k) s c i n qs h d s' q' HS ltac:(auto) Hr Hv An Es Hi)
    as (ideal & nadir & eqs & cu & r & z & K1 & K2 & K3 & K4 & L1 & L2 & L3 & L4 & K5 & K6 & K7 & K8).
  destruct (setting_facts _ _ _ _ _ _ _ _ HS) as (Hk & _).
  exists ideal, nadir, eqs, z. repeat (split; [assumption|]). split; [apply K8|].
  eapply (closest_weak k); [lia|exact L3|exact L4| |exact K4|exact K8]. rewrite rcomb_length; lia.
Qed.
Print Assumptions C76_weakly_optimal.
(** If some point of the approximation is at least as good as the moved target
    current + a * (reference point - current), so is the new solution. *)
Theorem C77_attainable :
  forall k e i0 n0 given s0 ideal0 nadir0 s c i n qs h d s' q',
  pn_setting k e i0 n0 given s0 ideal0 nadir0 ->
  pn_run e next_said (said0 s0) (pn_answers k) s0 s (PReq c i n :: qs) h ->
  pn_validate (PReq c i n) d = Ok tt -> pn_answers k (PReq c i n) d -> pn_shows d = false ->
  pn_iterate e (PReq c i n) (Some d) s = (s', Ok q') ->
  exists ideal nadir eqs cu r z, c = CVec (xv cu) /\ i = xv ideal /\ n = xv nadir /\ pe_hull e (sd_points h) = Ok (xm eqs) /\
    sd_target (next_said h (PReq c i n) d q') = Some (xv r) /\ q' = PReq (CVec (xv z)) i n /\
    let a := step_of (sd_gear (next_said h (PReq c i n) d q')) in
    forall z', approximation eqs ideal nadir z' -> rvle z' (rcomb (1 - a) cu a r) -> rvle z (rcomb (1 - a) cu a r).
Proof.
  intros k e i0 n0 given s0 ideal0 nadir0 s c i n qs h d s' q' HS Hr Hv An Es Hi.
  destruct (session_nav k e i0 n0 given s0 ideal0 nadir0 (pn_answers k) s c i n qs h d s' q' HS ltac:(auto) Hr Hv An Es Hi)
    as (ideal & nadir & eqs & cu & r & z & K1 & K2 & K3 & K4 & L1 & L2 & L3 & L4 & K5 & K6 & K7 & K8).
  exists ideal, nadir, eqs, cu, r, z. repeat (split; [assumption|]). cbv zeta. intros z' HA HV.
  eapply closest_attains; [| |exact K4|exact K8|exact HA|exact HV]; rewrite rcomb_length; lia.
Qed.
Print Assumptions C77_attainable.

(** ** C78: rejected answers *)
(** An answer that is rejected is rejected with a ParetoNavigatorException, unless it
    gives a reference point that is to be looked at. *)
Theorem C78_rejected_partial :
  forall (N : NumOps) (q : pn_request N) d x, pn_validate q d = Raise x -> x = MethodExn \/ (pd_ref d <> None /\ (x = OtherMethodExn \/ x = AttrErr)).
Proof.
  intros N q d x H.
  assert (HR : forall a i n, pn_validate_ref (N:=N) a i n = Raise x -> x = OtherMethodExn \/ x = AttrErr).
  { intros a i n E. unfold pn_validate_ref, rp_validate_ref in E. destruct a as [r| |]; try (destruct (negb _)); try (destruct (forallb _ _)); try congruence; injection E as <-; auto. }
  assert (HV : forall v, pn_check_speed (N:=N) v = Raise x -> x = MethodExn).
  { intros v E. unfold pn_check_speed in E. destruct (py_int v); [destruct (_ && _)|]; congruence. }
  destruct q as [i n p|c i n|c y f|c y f]; cbn [pn_validate] in H; try discriminate.
  - apply rbind_raise in H. destruct H as [H|([] & _ & H)].
    + destruct (pd_ref d) as [a|] eqn:Er, (pd_pref d) as [z|] eqn:Ep; try (left; congruence). right. split; [discriminate|eauto].
    + left. destruct (pd_speed d) as [v|]; [eauto|congruence].
  - destruct (is_true (pd_show d)); [discriminate|]. apply rbind_raise in H. destruct H as [H|([] & _ & H)].
    + left. destruct (pd_speed d) as [v|]; [eauto|discriminate].
    + destruct (pd_ref d) as [a|] eqn:Er, (pd_class d) as [l|] eqn:Ec; try (left; congruence).
      * right. split; [discriminate|eauto].
      * left. destruct (forallb class_ok l); congruence.
Qed.
Print Assumptions C78_rejected_partial.
(** What is accepted.  A reference point: an array with one number per objective, not
    worse than the nadir everywhere.  A speed: 1 to 5, after [int].  The first answer:
    a reference point or a preferred solution, not both, and a speed.  A later answer:
    ["show_solution"] true, or at most one of a reference point and a classification. *)
Theorem C78_accepted :
  forall (N : NumOps) (i n : list N) p (c : pn_point N) d,
  let ref_fine := forall a, pd_ref d = Some a -> exists q, a = RArr q /\ length q = length i /\ existsb (fun b : bool => negb b) (zipw nltb n q) = true in
  let speed_fine := forall v, pd_speed d = Some v -> exists z, py_int v = Some z /\ (1 <= z <= 5)%Z in
  (pn_validate (PInit i n p) d = Ok tt <->
     (pd_ref d = None <-> pd_pref d <> None) /\ ref_fine /\ pd_speed d <> None /\ speed_fine) /\
  (pn_validate (PReq c i n) d = Ok tt <->
     (exists v, pd_show d = Some v /\ truthy v = true) \/
     ((pd_ref d = None \/ pd_class d = None) /\ ref_fine /\ speed_fine /\
      forall l k, pd_class d = Some l -> In k l -> k <> CBad)).
Proof.
  intros N i n p c d ref_fine speed_fine.
  assert (HR : forall a, pn_validate_ref (N:=N) a i n = Ok tt <-> exists q, a = RArr q /\ length q = length i /\ existsb (fun b : bool => negb b) (zipw nltb n q) = true).
  { intros a. unfold pn_validate_ref, rp_validate_ref. destruct a as [q| |]; [|split; [discriminate|intros (q & E & _); discriminate]|split; [discriminate|intros (q & E & _); discriminate]].
    assert (HF : forall l : list bool, forallb (fun x => x) l = negb (existsb (fun b : bool => negb b) l)).
    { induction l as [|b l IH]; [reflexivity|]. cbn. rewrite IH. destruct b; reflexivity. }
    rewrite HF. destruct (Nat.eqb_spec (length i) (length q)) as [E|E]; cbn [negb].
    - destruct (existsb (fun b : bool => negb b) (zipw nltb n q)) eqn:Ex; cbn [negb]; split; intros H; try discriminate; auto.
      + exists q. auto.
      + destruct H as (q' & Eq & _ & H). injection Eq as <-. congruence.
    - split; [discriminate|]. intros (q' & Eq & H & _). injection Eq as <-. congruence. }
  assert (HV : forall v, pn_check_speed (N:=N) v = Ok tt <-> exists z, py_int v = Some z /\ (1 <= z <= 5)%Z).
  { intros v. unfold pn_check_speed. destruct (py_int v) as [z|]; [|split; [discriminate|intros (z & E & _); discriminate]].
    destruct (Z.leb_spec 1 z), (Z.leb_spec z 5); cbn [andb]; split; intros H1; try discriminate; try (exists z; split; auto; lia); auto; destruct H1 as (z' & E & H1); injection E as <-; lia. }
  split.
  - cbn [pn_validate]. unfold ref_fine, speed_fine. split.
    + intros H. apply rbind_ok in H. destruct H as ([] & H1 & H2).
      destruct (pd_speed d) as [v|]; [|discriminate]. apply HV in H2.
      assert (HS : forall w, Some v = Some w -> exists z, py_int w = Some z /\ (1 <= z <= 5)%Z) by (intros w E; injection E as <-; exact H2).
      destruct (pd_ref d) as [a|], (pd_pref d) as [z|]; try discriminate; (split; [split; intros; congruence|split; [|split; [discriminate|exact HS]]]).
      * intros b E. injection E as <-. apply HR. exact H1.
      * intros b E. discriminate.
    + intros (H1 & H2 & H3 & H4). destruct (pd_speed d) as [v|]; [|congruence]. rewrite (proj2 (HV v) (H4 v eq_refl)).
      destruct (pd_ref d) as [a|], (pd_pref d) as [z|]; cbn [rbind]; auto.
      * exfalso. assert (Some a = None) by (apply H1; discriminate). discriminate.
      * rewrite (proj2 (HR a) (H2 a eq_refl)). reflexivity.
      * exfalso. apply (proj1 H1 eq_refl). reflexivity.
  - cbn [pn_validate]. unfold ref_fine, speed_fine. split.
    + intros H. destruct (is_true (pd_show d)) eqn:Es.
      { left. unfold is_true in Es. destruct (pd_show d) as [v|]; [eauto|discriminate]. }
      right. apply rbind_ok in H. destruct H as ([] & H1 & H2).
      assert (HS : forall w, pd_speed d = Some w -> exists z, py_int w = Some z /\ (1 <= z <= 5)%Z).
      { intros w E. rewrite E in H1. apply HV. exact H1. }
      destruct (pd_ref d) as [a|], (pd_class d) as [l|]; try discriminate; (split; [auto|split; [|split; [exact HS|]]]); try (intros; discriminate).
      * intros b E. injection E as <-. apply HR. exact H2.
      * intros l' k E Hk. injection E as <-. destruct (forallb class_ok l) eqn:F; [|discriminate]. rewrite forallb_forall in F. specialize (F k Hk). intros ->. discriminate F.
    + intros [(v & E & Ht)|(H1 & H2 & H3 & H4)].
      { unfold is_true. rewrite E, Ht. reflexivity. }
      destruct (is_true (pd_show d)); [reflexivity|].
      assert (E1 : (match pd_speed d with None => Ok tt | Some v => pn_check_speed v end) = Ok tt).
      { destruct (pd_speed d) as [v|]; [|reflexivity]. apply HV. apply H3. reflexivity. }
      rewrite E1. cbn [rbind]. destruct (pd_ref d) as [a|], (pd_class d) as [l|]; auto.
      * destruct H1; discriminate.
      * apply HR. auto.
      * assert (F : forallb class_ok l = true). { apply forallb_forall. intros k Hk. specialize (H4 l k eq_refl Hk). destruct k; try reflexivity. contradiction H4. reflexivity. }
        rewrite F. reflexivity.
Qed.
Print Assumptions C78_accepted.
(** Refuted for reference points: one that is worse than the nadir everywhere, or of
    the wrong length, gets the exception of another method (RPMException), one
    without a shape (a list) an AttributeError. *)
Theorem C78_reference_refuted :
  forall (N : NumOps) (c : pn_point N) i n p q v, pn_check_speed v = Ok tt -> length n = length i ->
  length q <> length i \/ (forall m r, In (m, r) (combine n q) -> nltb m r = true) ->
  pn_validate (PInit i n p) (MkPD (Some (RArr q)) None (Some v) None None None None) = Raise OtherMethodExn /\
  pn_validate (PReq c i n) (MkPD (Some (RArr q)) None (Some v) None None None None) = Raise OtherMethodExn /\
  pn_validate (PReq c i n) (MkPD (Some RNoArr) None (Some v) None None None None) = Raise AttrErr.
Proof.
  intros N c i n p q v Hv Ln H.
  assert (E : pn_validate_ref (RArr q) i n = Raise OtherMethodExn).
  { unfold pn_validate_ref, rp_validate_ref. destruct (Nat.eqb_spec (length i) (length q)) as [E|E]; cbn [negb]; [|reflexivity].
    destruct H as [H|H]; [congruence|].
    replace (forallb (fun x => x) (zipw nltb n q)) with true; [reflexivity|]. symmetry. clear -H. revert q H.
    induction n as [|m n IH]; intros [|r q] H; try reflexivity. cbn. rewrite (H m r) by (left; reflexivity). apply IH. intros m' r' Hin. apply H. right. exact Hin. }
  cbn [pn_validate pd_ref pd_pref pd_speed pd_show is_true pd_class]. rewrite Hv, E. auto.
Qed.
Print Assumptions C78_reference_refuted.

(** ** C79: the approximation *)
(** With an exact convex hull: a solution that is shown and turned down becomes part
    of the approximation, and no point of it is lost. *)
Theorem C79_approximation_grows :
  forall k e i0 n0 given s0 ideal0 nadir0 G (g : G -> _) g0 A s c x f qs h d s' q',
  pn_setting k e i0 n0 given s0 ideal0 nadir0 -> hull_exact k (pe_hull e) ->
  pn_run e g g0 A s0 s (PSol c x f :: qs) h -> is_true (pd_sat d) = false ->
  pn_iterate e (PSol c x f) (Some d) s = (s', Ok q') ->
  exists ideal nadir ideal' nadir' eqs eqs' fr, ps_ideal s = xv ideal /\ ps_nadir s = xv nadir /\ q' = PReq c (xv ideal') (xv nadir') /\
    pe_hull e (ps_pos s) = Ok (xm eqs) /\ pe_hull e (ps_pos s') = Ok (xm eqs') /\ f = xv fr /\
    approximation eqs' ideal' nadir' fr /\
    forall z, length z = k -> approximation eqs ideal nadir z -> approximation eqs' ideal' nadir' z.
Proof.
  intros k e i0 n0 given s0 ideal0 nadir0 G g g0 A s c x f qs h d s' q' HS HX Hr Hs Hi.
  destruct (setting_facts _ _ _ _ _ _ _ _ HS) as (Hk & HH & HP & HR & HE & HO0 & HL0 & HN0 & HX0). pose proof HS as (_ & _ & _ & HLP & HD).
  destruct (run_shown XR_ord e g g0 A s0 s _ _ h Hr) as (Ec & Epo & _).
  destruct (hist_rl e k Hk HH HP HE (s0, []) (s, _) HO0 HL0 (run_hist e g g0 A s0 s _ h Hr)) as (HO & HL). cbn [fst] in *.
  destruct (run_hull e k s0 HH g g0 A s _ h HX0 Hr) as (eqs0 & [X1 _ _ _ _]).
  assert (HL' : pn_rl s') by (eapply iterate_rl; eauto). assert (HO' : pn_ok e k s') by (eapply iterate_ok_inv; eauto).
  cbn [pn_iterate] in Hi. destruct (continue_ok e (Some d) s s' q') as (x' & f' & eqs1 & lo & hi & c' & Ha & Hc & ->); [cbn; rewrite Hs; reflexivity|exact Hi|].
  destruct (added_wide XR_ord e k Hk s s' f' x' eqs1 lo hi HO (rl_nn _ HL) Ha) as (_ & (W1 & W2) & HB).
  destruct Ha as [D1 _ D3 D4 _ _ _ _ _ _ _ _]. rewrite Epo in D1. injection D1 as <- <-. rewrite Ec in Hc. injection Hc as <-.
  pose proof HL as [(ideal & nadir & Ei & En & Hlt) (pos & Ep) Hpo]. destruct (Hpo _ _ Epo) as (fr & ->).
  pose proof HL' as [(ideal' & nadir' & Ei' & En' & Hlt') _ _]. destruct (HR _ _ X1) as (eqs & ->). destruct (HR _ _ D4) as (eqs' & ->).
  exists ideal, nadir, ideal', nadir', eqs, eqs', fr. rewrite D3.
  split; [exact Ei|]. split; [exact En|]. split; [congruence|]. split; [exact X1|]. split; [exact D4|]. split; [reflexivity|].
  rewrite Ei, Ei' in W1. rewrite En, En' in W2. apply xvle_iff in W1. apply xvle_iff in W2.
  pose proof (ok_pos _ _ _ HO) as Mp. rewrite Ep in Mp. apply xm_is_matrix in Mp. pose proof (ok_pos _ _ _ HO') as Mp'. rewrite D3, Ep, xm_snoc in Mp'. apply xm_is_matrix in Mp'.
  assert (Lf : length fr = k) by (apply Forall_app in Mp'; destruct Mp' as [_ Mp']; inversion Mp'; assumption).
  rewrite Ep in X1. rewrite Ep, xm_snoc in D4. split.
  - destruct (HB (xv fr)) as (B1 & B2); [rewrite D3; apply in_or_app; right; left; reflexivity|]. rewrite Ei' in B1. rewrite En' in B2. apply xvle_iff in B1. apply xvle_iff in B2.
    split; [|split; assumption]. apply (HX _ _ D4 _ Lf). apply hull_point; [exact Mp'|apply in_or_app; right; left; reflexivity].
  - intros z Lz (Z1 & Z2 & Z3). split; [|split].
    + apply (HX _ _ D4 _ Lz). apply hull_snoc; [exact Lf|exact Mp|]. apply (HX _ _ X1 _ Lz). exact Z1.
    + eapply rvle_trans; eassumption.
    + eapply rvle_trans; eassumption.
Qed.
Print Assumptions C79_approximation_grows.
(** In a session that starts from one of the given solutions the current solution is
    always a point of the approximation. *)
Theorem C79_current_inside :
  forall k e i0 n0 given s0 ideal0 nadir0 G (g : G -> _) g0 s c i n qs h,
  pn_setting k e i0 n0 given s0 ideal0 nadir0 -> encloses0 s0 -> hull_exact k (pe_hull e) ->
  pn_run e g g0 (pn_plays k) s0 s (PReq c i n :: qs) h ->
  exists cu ideal nadir eqs, c = CVec (xv cu) /\ i = xv ideal /\ n = xv nadir /\ pe_hull e (ps_pos s) = Ok (xm eqs) /\ approximation eqs ideal nadir cu.
Proof.
  intros k e i0 n0 given s0 ideal0 nadir0 G g g0 s c i n qs h HS HB HX Hr.
  destruct (setting_facts _ _ _ _ _ _ _ _ HS) as (Hk & HH & HP & HR & HE & HO0 & HL0 & HN0 & HX0). pose proof HS as (_ & _ & _ & HLP & HD).
  destruct (run_shown XR_ord e g g0 _ s0 s _ _ h Hr) as (Ec & Ei & En).
  destruct (run_fin e k s0 Hk HLP HH HP HR HE HD HO0 HL0 HN0 g g0 _ s _ h (fun q d X => proj1 X) Hr) as (J1 & J2 & J3).
  destruct (run_boxed e k s0 Hk HLP HH HP HR HE HD HO0 HL0 HN0 HB g g0 (pn_plays k) s _ h (fun q d X => X) Hr _ Ec) as (v & -> & Hv).
  destruct (run_hull e k s0 HH g g0 _ s _ h HX0 Hr) as (eqs0 & [X1 _ _ _ _]). destruct (HR _ _ X1) as (eqs & ->).
  destruct (fin_cur _ _ J3 _ Ec) as (cu & ->). pose proof J2 as [(ideal & nadir & Ei' & En' & Hlt) (pos & Ep) _]. destruct Hv as (B1 & B2).
  rewrite Ei' in B1. rewrite En' in B2. apply xvle_iff in B1. apply xvle_iff in B2.
  pose proof (run_in e k s0 Hk HLP HH HP HR HE HD HO0 HL0 HN0 HX g g0 (pn_plays k) s _ h HX0 (fun q d X => X) Hr _ _ Ec Ep) as Hin.
  exists cu, ideal, nadir, eqs. split; [reflexivity|]. split; [congruence|]. split; [congruence|]. split; [exact X1|]. split; [|split; assumption].
  rewrite Ep in X1. apply (HX _ _ X1); [|exact Hin]. apply rvle_len in B1. pose proof (ok_ideal _ _ _ J1) as L. rewrite Ei', xv_length in L. lia.
Qed.
Print Assumptions C79_current_inside.

(** For a data problem over the reals, the row that is shown has the least maximal
    difference to the approximate solution, and no row is better in every objective. *)
Theorem C73_data_closest :
  forall k e objs decs G (g : G -> _) g0 A s0 s c x f qs h,
  pe_prob e = PDisc (xm objs) decs -> Forall (fun r => length r = k) objs -> (0 < k)%nat -> length c = k ->
  pn_run e g g0 A s0 s (PSol (CVec (xv c)) x f :: qs) h ->
  exists j fr, nth_error decs j = Some x /\ nth_error objs j = Some fr /\ f = xv fr /\
    (forall r t, In r objs -> Forall2 (fun y v => y - v <= t) r c -> Forall2 (fun y v => y - v <= t) fr c) /\
    (forall r, In r objs -> ~ Forall2 Rlt r fr).
Proof.
  intros k e objs decs G g g0 A s0 s c x f qs h Ep HM Hk Lc Hr. destruct (run_shown XR_ord e g g0 A s0 s _ _ h Hr) as (_ & _ & HP).
  unfold pn_projects in HP. rewrite Ep in HP. destruct HP as (j & v & Hd & Hf & Hv & _ & Hmin).
  rewrite xm_nth in Hf. destruct (nth_error objs j) as [fr|] eqn:Ej; [|discriminate]. injection Hf as <-. exists j, fr. repeat (split; [assumption || reflexivity|]).
  rewrite Forall_forall in HM. pose proof (HM _ (nth_error_In _ _ Ej)) as Lf.
  assert (Hne : forall r : list R, length r = k -> r <> []) by (intros r E ->; cbn in E; lia).
  rewrite simple_asf_xr in Hv by (auto; lia). injection Hv as <-.
  assert (HH : forall r, In r objs -> rlmax (rsub fr c) <= rlmax (rsub r c)).
  { intros r Hin. pose proof (HM _ Hin) as Lr. specialize (Hmin (xv r) (Fin (rlmax (rsub r c)) : XR)). apply xleb_fin. apply Hmin; [apply in_map; exact Hin|apply simple_asf_xr; [lia|auto]|apply xisnan_fin]. }
  split.
  - intros r t Hin Ht. pose proof (HM _ Hin) as Lr. apply rlmax_dev; [auto|lia|]. apply rlmax_dev in Ht; [|auto|lia]. specialize (HH _ Hin). lra.
  - intros r Hin Hlt. pose proof (HM _ Hin) as Lr. specialize (HH _ Hin).
    assert (Hr2 : Forall2 (fun y v => y - v <= rlmax (rsub r c)) r c) by (apply rlmax_dev; [auto|lia|lra]).
    assert (Hf2 : exists t, t < rlmax (rsub fr c) /\ Forall2 (fun y v => y - v <= t) r c).
    { assert (Hx : Forall2 (fun y v => y - v <= rlmax (rsub fr c)) fr c) by (apply rlmax_dev; [auto|lia|lra]).
      clear -Hlt Hx. revert Hlt Hx. generalize (rlmax (rsub fr c)) as m. intros m Hlt. revert c. induction Hlt as [|y z r fr Hyz Hlt IH]; intros c Hx; inversion Hx; subst.
      - exists (m - 1). split; [lra|constructor].
      - destruct (IH _ H3) as (t & Ht & HF). exists (Rmax t (y - y0)). split; [apply Rmax_lub_lt; lra|]. constructor; [apply Rmax_r|].
        pose proof (Rmax_l t (y - y0)) as Hm. clear -HF Hm. induction HF; constructor; auto. lra. }
    destruct Hf2 as (t & Ht & HF). apply rlmax_dev in HF; [|auto|lia]. lra.
Qed.
Print Assumptions C73_data_closest.
(** Data problems: an answer that asks for a solution is always answered with one. *)
Theorem C74_show_answered :
  forall k e objs decs G (g : G -> _) g0 A s0 s c i n qs h d,
  pe_prob e = PDisc (xm objs) decs -> objs <> [] -> length decs = length objs -> Forall (fun r => length r = k) objs -> (0 < k)%nat -> length c = k ->
  pn_run e g g0 A s0 s (PReq (CVec (xv c)) i n :: qs) h -> pn_shows d = true ->
  exists x f, snd (pn_iterate e (PReq (CVec (xv c)) i n) (Some d) s) = Ok (PSol (CVec (xv c)) x f).
Proof.
  intros k e objs decs G g g0 A s0 s c i n qs h d Ep Hne Ld HM Hk Lc Hr Es. destruct (run_shown XR_ord e g g0 A s0 s _ _ h Hr) as (Ec & _).
  destruct (disc_total k objs c Hne HM Lc Hk) as (j & Ej & Hj). destruct (nth_ex objs j Hj) as (fr & Ef). destruct (nth_ex decs j) as (x & Ex); [lia|].
  exists x, (xv fr). cbn [pn_iterate]. unfold pn_handle. unfold pn_shows in Es. rewrite Es. unfold pn_show, sbind, sget, lift, smod, sret. rewrite Ec. cbn [attr]. rewrite Ep, Ej. cbn [rbind].
  unfold at_. rewrite xm_nth, Ef, Ex. reflexivity.
Qed.
Print Assumptions C74_show_answered.

(** ** A concrete case *)
(** Three solutions, their convex hull (a triangle), also after any of them has been
    added again, and the solver of PLp.v. *)
Ltac fl := repeat first [apply Forall2_nil | apply Forall2_cons; [lra|] | apply Forall_nil | apply Forall_cons; [lra|]].
Definition ex_P : list (list R) := [[0; 1]; [1; 0]; [1; 1]].
Definition ex_E : list (list R) := [[-1; -1; 1]; [1; 0; -1]; [0; 1; -1]].
Definition ex_known (pts : list (list XR)) : Prop := exists l, Forall (fun p => In p ex_P) l /\ pts = xm (ex_P ++ l).
Definition ex_hull (pts : list (list XR)) : res (list (list XR)) :=
  if excluded_middle_informative (ex_known pts) then Ok (xm ex_E) else Raise ValueErr.
Definition ex_e : pn_env XR := MkPE (PDisc (xm ex_P) (xm [[10]; [20]; [30]])) ex_hull lp_solver.

Lemma ex_P_len p : In p ex_P -> length p = 2%nat.
Proof. intros [<-|[<-|[<-|[]]]]; reflexivity. Qed.
Lemma ex_inside a b : inside ex_E [a; b] <-> 1 <= a + b /\ a <= 1 /\ b <= 1.
Proof.
  split.
  - intros H. pose proof (H [-1; -1] 1 (or_introl eq_refl)) as H1. pose proof (H [1; 0] (-1) (or_intror (or_introl eq_refl))) as H2.
    pose proof (H [0; 1] (-1) (or_intror (or_intror (or_introl eq_refl)))) as H3. cbn in H1, H2, H3. lra.
  - intros H a' a0 [E|[E|[E|[]]]]; assert (La : length a' = 2%nat) by (apply (f_equal (@length R)) in E; rewrite app_length in E; cbn in E; lia);
      destruct a' as [|x [|y [|]]]; try discriminate; cbn in E; injection E as <- <- <-; cbn; lra.
Qed.
Lemma ex_hull_exact : hull_exact 2 ex_hull.
Proof.
  intros pts eqs H z Lz. unfold ex_hull in H. destruct (excluded_middle_informative _) as [(l & Hl & E)|]; [|discriminate].
  assert (H' : xm ex_E = xm eqs) by congruence. apply xm_inj in H'. subst eqs. apply xm_inj in E. subst pts.
  assert (HM : Forall (fun p => length p = 2%nat) (ex_P ++ l)).
  { apply Forall_app. split; [repeat constructor|]. eapply Forall_impl; [|exact Hl]. exact ex_P_len. }
  split.
  - intros Hi. destruct z as [|a [|b [|]]]; try discriminate. apply ex_inside in Hi. apply hull_more; [repeat constructor|apply Forall_app in HM; apply HM|].
    exists [1 - a; 1 - b; a + b - 1]. split; [reflexivity|]. split; [fl|]. split; [cbn; lra|]. cbn. f_equal; [lra|]. f_equal. lra.
  - intros Hi. eapply hull_inside; [exact HM| |exact Hi]. intros p Hp. assert (Hp' : In p ex_P) by (apply in_app_or in Hp; destruct Hp as [Hp|Hp]; [exact Hp|rewrite Forall_forall in Hl; auto]).
    destruct Hp' as [<-|[<-|[<-|[]]]]; apply ex_inside; lra.
Qed.
Lemma ex_hull_known pts : ex_known pts -> ex_hull pts = Ok (xm ex_E).
Proof. intros H. unfold ex_hull. destruct (excluded_middle_informative _); [reflexivity|contradiction]. Qed.
Lemma nisinf_fin (r : R) : @nisinf XR (Fin r) = false.
Proof. unfold nisinf. rewrite xisnan_fin. change (@nsub XR (Fin r) (Fin r)) with (Fin (r - r) : XR). rewrite xisnan_fin. reflexivity. Qed.
Lemma ex_hull_inv pts eqs : ex_hull pts = Ok eqs -> eqs = xm ex_E.
Proof. unfold ex_hull. destruct (excluded_middle_informative _); [congruence|discriminate]. Qed.

Lemma ex_ctor : exists s0, pn_ctor ex_e (xv [0; 0]) (xv [1; 1]) None = Ok s0 /\ ps_ideal s0 = xv [0; 0] /\ ps_nadir s0 = xv [1; 1] /\ ps_pos s0 = xm ex_P.
Proof.
  unfold pn_ctor. cbn [pe_prob ex_e rbind]. assert (E : any_inf (xv [1; 1] : list XR) || any_inf (xv [0; 0] : list XR) = false).
  { unfold any_inf. cbn [xv map existsb]. rewrite !nisinf_fin. reflexivity. }
  rewrite E. cbn [rbind fst snd]. unfold pn_polyhedral. cbn [pe_hull].
  rewrite ex_hull_known by (exists []; split; [constructor|rewrite app_nil_r; reflexivity]). cbn [rbind].
  rewrite weights_xr; [|reflexivity|repeat constructor; lra]. cbn [rbind].
  destruct (lppp_ex 2 (le_n 2) (xv (map (fun r => 1 / r) (rsub [1; 1] [0; 0])) : list XR) (xm ex_E)) as (A & EA); [reflexivity|repeat constructor|].
  rewrite EA. cbn [rbind]. eexists. split; [reflexivity|]. auto.
Qed.
Lemma ex_setting : exists s0, pn_setting 2 ex_e (xv [0; 0]) (xv [1; 1]) None s0 [0; 0] [1; 1] /\ encloses0 s0 /\ hull_exact 2 (pe_hull ex_e) /\ lp_total (pe_lp ex_e) /\ ps_pos s0 = xm ex_P.
Proof.
  destruct ex_ctor as (s0 & HC & Ei & En & Ep). exists s0. split; [|split; [|split; [exact ex_hull_exact|split; [exact lp_solver_total|exact Ep]]]].
  - split; [|split; [exact HC|split; [|split; [exact lp_solver_exact|exact I]]]].
    + split; [lia|]. split; [reflexivity|]. split; [reflexivity|]. split; [discriminate|]. split; [|split; [discriminate|repeat constructor]].
      intros pts eqs H. apply ex_hull_inv in H. subst. repeat constructor.
    + split; [exact Ei|]. split; [exact En|]. split; [fl|]. split; [exists ex_P; exact Ep|]. split; [|exists ex_P; reflexivity].
      intros pts eqs H. apply ex_hull_inv in H. subst. exists ex_E. reflexivity.
  - intros f Hf. rewrite Ep in Hf. rewrite Ei, En. unfold xm in Hf. apply in_map_iff in Hf. destruct Hf as (p & <- & Hp).
    split; apply xvle_iff; destruct Hp as [<-|[<-|[<-|[]]]]; unfold rvle; fl.
Qed.

(** The session: start from the first solution at full speed; improve the second
    objective at the expense of the first; go back; go back again. *)
Definition ex_d0 : pn_dict XR := MkPD None (Some (PIdx 0)) (Some (VInt 5)) None None None None.
Definition ex_d1 : pn_dict XR := MkPD None None None None None (Some [CGreater; CLess]) None.
Definition ex_back : pn_dict XR := MkPD None None None None (Some (VBool true)) None None.
Definition ex_show : pn_dict XR := MkPD None None None (Some (VBool true)) None None None.
Definition ex_no : pn_dict XR := MkPD None None None None None None (Some (VBool false)).

Lemma ex_plays0 q : pn_plays 2 q ex_d0.
Proof. split; [|destruct q; cbn; auto]. split; [discriminate|]. split; [intros v E; injection E as <-; eauto|discriminate]. Qed.
Lemma ex_plays1 c i n : pn_plays 2 (PReq c i n) ex_d1.
Proof. split; [|cbn; auto]. split; [discriminate|]. split; [discriminate|]. intros l E. injection E as <-. reflexivity. Qed.
Lemma ex_plays_back c i n : pn_plays 2 (PReq c i n) ex_back.
Proof. split; [|cbn; auto]. split; [discriminate|]. split; discriminate. Qed.
Lemma ex_plays_show c i n : pn_plays 2 (PReq c i n) ex_show.
Proof. split; [|cbn; auto]. split; [discriminate|]. split; discriminate. Qed.

(** One step, by C74. *)
Lemma ex_step s0 s c i n qs h d :
  pn_setting 2 ex_e (xv [0; 0]) (xv [1; 1]) None s0 [0; 0] [1; 1] -> encloses0 s0 ->
  pn_run ex_e next_said (said0 s0) (pn_plays 2) s0 s (PReq (CVec (xv c)) i n :: qs) h -> length c = 2%nat ->
  pn_validate (PReq (CVec (xv c)) i n) d = Ok tt -> pn_plays 2 (PReq (CVec (xv c)) i n) d -> pn_shows d = false ->
  sd_target h <> None \/ pd_ref d <> None \/ pd_class d <> None ->
  exists s' z, length z = 2%nat /\ pn_iterate ex_e (PReq (CVec (xv c)) i n) (Some d) s = (s', Ok (PReq (CVec (xv z)) i n)) /\
    pn_run ex_e next_said (said0 s0) (pn_plays 2) s0 s' (PReq (CVec (xv z)) i n :: PReq (CVec (xv c)) i n :: qs) (next_said h (PReq (CVec (xv c)) i n) d (PReq (CVec (xv z)) i n)).
Proof.
  intros HS HB Hr Lc Hv Hp Es Hd.
  assert (Hr' : pn_run ex_e next_said (said0 s0) (pn_answers 2) s0 s (PReq (CVec (xv c)) i n :: qs) h) by (eapply run_weaken; [|exact Hr]; intros q' d' X; exact (proj1 X)).
  destruct (C74_navigation_answered_partial _ _ _ _ _ _ _ _ s (xv c) i n qs h d HS HB ex_hull_exact lp_solver_total Hr' ltac:(rewrite xv_length; exact Lc) Hv (proj1 Hp) Es Hd) as (z & Hz).
  destruct (pn_iterate ex_e (PReq (CVec (xv c)) i n) (Some d) s) as [s' o] eqn:Hi. cbn [snd] in Hz. subst o. exists s', z.
  split; [|split; [reflexivity|econstructor; eauto]].
  destruct (session_nav _ _ _ _ _ _ _ _ _ s _ i n qs h d s' _ HS (fun q d X => X) Hr' Hv (proj1 Hp) Es Hi) as (ideal & nadir & eqs & cu & r & zz & _ & _ & _ & _ & _ & _ & L & _ & _ & _ & E & K).
  injection E as E. apply xv_inj in E. subst zz. destruct K as ((_ & B & _) & _). apply rvle_len in B. lia.
Qed.

Example C51_hypotheses_met : exists s0 s1 s2 s3 s4 z2 z3 z4 i n h1 h2 h3 qs,
  pn_setting 2 ex_e (xv [0; 0]) (xv [1; 1]) None s0 [0; 0] [1; 1] /\ encloses0 s0 /\
  (* C51, C54, C76, C77: the first move *)
  pn_run ex_e next_said (said0 s0) (pn_plays 2) s0 s1 (PReq (CVec (xv [0; 1])) i n :: qs) h1 /\
  pn_iterate ex_e (PReq (CVec (xv [0; 1])) i n) (Some ex_d1) s1 = (s2, Ok (PReq (CVec (xv z2)) i n)) /\
  (* C53_back_partial *)
  pn_run ex_e next_said (said0 s0) (pn_plays 2) s0 s2 (PReq (CVec (xv z2)) i n :: PReq (CVec (xv [0; 1])) i n :: qs) h2 /\
  pn_validate (PReq (CVec (xv z2)) i n) ex_back = Ok tt /\ steps_back h2 ex_back /\
  pn_iterate ex_e (PReq (CVec (xv z2)) i n) (Some ex_back) s2 = (s3, Ok (PReq (CVec (xv z3)) i n)) /\
  (* C53_back_refuted *)
  pn_run ex_e next_said (said0 s0) (pn_plays 2) s0 s3 (PReq (CVec (xv z3)) i n :: PReq (CVec (xv z2)) i n :: PReq (CVec (xv [0; 1])) i n :: qs) h3 /\
  g_sign (sd_gear h3) = (-1)%Z /\ pn_back ex_back = true /\ pd_speed ex_back = None /\
  pn_iterate ex_e (PReq (CVec (xv z3)) i n) (Some ex_back) s3 = (s4, Ok (PReq (CVec (xv z4)) i n)).
Proof.
  destruct ex_setting as (s0 & HS & HB & _ & _ & Ep). exists s0.
  destruct (C72_preferred_start XR ex_e s0 ex_d0 0 (VInt 5) (xv [0; 1]) (Fin (IZR 5 / 50) : XR)) as (_ & s1 & Hi & Hc & Hs & Hf & _);
    [reflexivity..|rewrite Ep; reflexivity|apply speed_int|].
  assert (R1 : pn_run ex_e next_said (said0 s0) (pn_plays 2) s0 s1 (PReq (CVec (xv [0; 1])) (ps_ideal s0) (ps_nadir s0) :: [pn_start s0])
                 (next_said (said0 s0) (pn_start s0) ex_d0 (PReq (CVec (xv [0; 1])) (ps_ideal s0) (ps_nadir s0)))).
  { econstructor; [constructor| |apply ex_plays0|exact Hi]. reflexivity. }
  destruct (ex_step s0 s1 [0; 1] _ _ _ _ ex_d1 HS HB R1 eq_refl eq_refl (ex_plays1 _ _ _) eq_refl) as (s2 & z2 & L2 & I2 & R2); [right; right; discriminate|].
  destruct (ex_step s0 s2 z2 _ _ _ _ ex_back HS HB R2 L2 eq_refl (ex_plays_back _ _ _) eq_refl) as (s3 & z3 & L3 & I3 & R3); [left; discriminate|].
  destruct (ex_step s0 s3 z3 _ _ _ _ ex_back HS HB R3 L3 eq_refl (ex_plays_back _ _ _) eq_refl) as (s4 & z4 & L4 & I4 & _); [left; discriminate|].
  exists s1, s2, s3, s4, z2, z3, z4, (ps_ideal s0), (ps_nadir s0). do 4 eexists.
  split; [exact HS|]. split; [exact HB|]. split; [exact R1|]. split; [exact I2|]. split; [exact R2|]. split; [reflexivity|].
  split; [split; [reflexivity|right; reflexivity]|]. split; [exact I3|]. split; [exact R3|]. split; [reflexivity|]. split; [reflexivity|]. split; [reflexivity|]. exact I4.
Qed.

(** A solution is shown, turned down, and the session goes on (C52, C73, C74, C79). *)
Example C73_hypotheses_met : exists s0 s1 s2 s3 c x f i n i' n' h qs,
  pn_setting 2 ex_e (xv [0; 0]) (xv [1; 1]) None s0 [0; 0] [1; 1] /\ encloses0 s0 /\
  pn_run ex_e next_said (said0 s0) (fun _ _ => True) s0 s2 (PSol c x f :: PReq c i n :: qs) h /\
  pn_iterate ex_e (PReq c i n) (Some ex_show) s1 = (s2, Ok (PSol c x f)) /\
  is_true (pd_sat ex_no) = false /\
  pn_iterate ex_e (PSol c x f) (Some ex_no) s2 = (s3, Ok (PReq c i' n')).
Proof.
  destruct ex_setting as (s0 & HS & HB & _ & _ & Ep). exists s0.
  destruct (C72_preferred_start XR ex_e s0 ex_d0 0 (VInt 5) (xv [0; 1]) (Fin (IZR 5 / 50) : XR)) as (_ & s1 & Hi & Hc & Hs & Hf & Hpos);
    [reflexivity..|rewrite Ep; reflexivity|apply speed_int|].
  assert (R1 : pn_run ex_e next_said (said0 s0) (fun _ _ => True) s0 s1 (PReq (CVec (xv [0; 1])) (ps_ideal s0) (ps_nadir s0) :: [pn_start s0])
                 (next_said (said0 s0) (pn_start s0) ex_d0 (PReq (CVec (xv [0; 1])) (ps_ideal s0) (ps_nadir s0)))).
  { econstructor; [constructor| |exact I|exact Hi]. reflexivity. }
  destruct (C74_show_answered 2 ex_e ex_P (xm [[10]; [20]; [30]]) _ _ _ _ s0 s1 [0; 1] _ _ _ _ ex_show eq_refl ltac:(discriminate) eq_refl ltac:(repeat constructor) ltac:(lia) eq_refl R1 eq_refl) as (x & f & Hsh).
  match type of Hsh with snd ?t = _ => destruct t as [s2 o] eqn:I2 end. cbn [snd] in Hsh. subst o.
  assert (R2 : pn_run ex_e next_said (said0 s0) (fun _ _ => True) s0 s2 (PSol (CVec (xv [0; 1])) x f :: PReq (CVec (xv [0; 1])) (ps_ideal s0) (ps_nadir s0) :: [pn_start s0])
                 (next_said (next_said (said0 s0) (pn_start s0) ex_d0 (PReq (CVec (xv [0; 1])) (ps_ideal s0) (ps_nadir s0))) (PReq (CVec (xv [0; 1])) (ps_ideal s0) (ps_nadir s0)) ex_show (PSol (CVec (xv [0; 1])) x f))).
  { econstructor; [exact R1|reflexivity|exact I|exact I2]. }
  destruct HS as (HW & HC & HS'). 
  pose proof (C74_continue XR XR_ord 2 ex_e _ _ _ s0 _ _ _ _ s2 _ x f _ _ ex_no HW HC R2 eq_refl) as HCo.
  destruct (pn_iterate ex_e (PSol (CVec (xv [0; 1])) x f) (Some ex_no) s2) as [s3 [q3|er]] eqn:I3; cbn [snd] in HCo.
  - destruct HCo as (i' & n' & eqs & -> & _). exists s1, s2, s3, (CVec (xv [0; 1])), x, f, (ps_ideal s0), (ps_nadir s0), i', n'. do 2 eexists.
    split; [split; [exact HW|split; [exact HC|exact HS']]|]. split; [exact HB|]. split; [exact R2|]. split; [exact I2|]. split; [reflexivity|exact I3].
  - exfalso. destruct HCo as (er' & HCo). cbn [pe_hull ex_e] in HCo.
    destruct (C73_data_closest 2 ex_e ex_P (xm [[10]; [20]; [30]]) _ _ _ _ s0 s2 [0; 1] x f _ _ eq_refl ltac:(repeat constructor) ltac:(lia) eq_refl R2) as (j & fr & _ & Hj & -> & _).
    cbn [pn_iterate] in I2. apply show_ok in I2; [|reflexivity]. destruct I2 as (c' & x' & f' & _ & -> & _). cbn [p_po ps_pos] in HCo. rewrite Hpos, Ep, xm_snoc in HCo.
    rewrite ex_hull_known in HCo; [discriminate|]. exists [fr]. split; [constructor; [eapply nth_error_In; exact Hj|constructor]|reflexivity].
Qed.

(** ** C54, refuted for a start from a reference point *)
(** A problem with two variables and two objectives, the same approximation; the
    optimizer finds the decision vector (5, 5), which becomes the current solution.
    Asking to keep all values then sets a reference point outside the ideal-nadir box. *)
Definition ex_m : pn_env XR := MkPE (PMO (fun _ => xv [0; 1]) (fun _ _ => Ok (Some (xv [5; 5])))) ex_hull lp_solver.
Definition ex_r0 : pn_dict XR := MkPD (Some (RArr (xv [0; 0]))) None (Some (VInt 5)) None None None None.
Definition ex_keep : pn_dict XR := MkPD None None None None None (Some [CEqual; CEqual]) None.
Lemma ex_m_setting : exists s0, pn_setting 2 ex_m (xv [0; 0]) (xv [1; 1]) (Some (xm ex_P)) s0 [0; 0] [1; 1] /\ encloses0 s0 /\ ps_ideal s0 = xv [0; 0] /\ ps_nadir s0 = xv [1; 1].
Proof.
  assert (HC : exists s0, pn_ctor ex_m (xv [0; 0]) (xv [1; 1]) (Some (xm ex_P)) = Ok s0 /\ ps_ideal s0 = xv [0; 0] /\ ps_nadir s0 = xv [1; 1] /\ ps_pos s0 = xm ex_P).
  { unfold pn_ctor. cbn [pe_prob ex_m rbind]. assert (E : any_inf (xv [1; 1] : list XR) || any_inf (xv [0; 0] : list XR) = false).
    { unfold any_inf. cbn [xv map existsb]. rewrite !nisinf_fin. reflexivity. }
    rewrite E. cbn [rbind fst snd]. unfold pn_polyhedral. cbn [pe_hull].
    rewrite ex_hull_known by (exists []; split; [constructor|rewrite app_nil_r; reflexivity]). cbn [rbind].
    rewrite weights_xr; [|reflexivity|fl]. cbn [rbind].
    destruct (lppp_ex 2 (le_n 2) (xv (map (fun r => 1 / r) (rsub [1; 1] [0; 0])) : list XR) (xm ex_E)) as (A & EA); [reflexivity|repeat constructor|].
    rewrite EA. cbn [rbind]. eexists. split; [reflexivity|]. auto. }
  destruct HC as (s0 & HC & Ei & En & Ep). exists s0. split; [|split; [|auto]].
  - split; [|split; [exact HC|split; [|split; [exact lp_solver_exact|]]]].
    + split; [lia|]. split; [reflexivity|]. split; [reflexivity|]. split; [intros m E; injection E as <-; split; [discriminate|repeat constructor]|]. split; [|intros x; reflexivity].
      intros pts eqs H. apply ex_hull_inv in H. subst. repeat constructor.
    + split; [exact Ei|]. split; [exact En|]. split; [fl|]. split; [exists ex_P; exact Ep|]. split; [|intros x; exists [0; 1]; reflexivity].
      intros pts eqs H. apply ex_hull_inv in H. subst. exists ex_E. reflexivity.
    + intros b q x E. exists [5; 5]. congruence.
  - intros f Hf. rewrite Ep in Hf. rewrite Ei, En. unfold xm in Hf. apply in_map_iff in Hf. destruct Hf as (p & <- & Hp).
    split; apply xvle_iff; destruct Hp as [<-|[<-|[<-|[]]]]; unfold rvle; fl.
Qed.
Theorem C54_in_box_refuted :
  exists e i0 n0 given s0 ideal0 nadir0 s c i n qs h d s' q' r,
  pn_setting 2 e i0 n0 given s0 ideal0 nadir0 /\ encloses0 s0 /\ hull_exact 2 (pe_hull e) /\
  pn_run e next_said (said0 s0) (pn_answers 2) s0 s (PReq c i n :: qs) h /\
  pn_validate (PReq c i n) d = Ok tt /\ pn_answers 2 (PReq c i n) d /\ pd_class d = Some [CEqual; CEqual] /\
  pn_iterate e (PReq c i n) (Some d) s = (s', Ok q') /\ ps_ref s' = Some r /\ ~ in_box r i n.
Proof.
  destruct ex_m_setting as (s0 & HS & HB & Ei & En).
  pose proof (C72_reference_start_refuted XR ex_m s0 ex_r0 _ _ (xv [0; 0]) (xv [5; 5]) (VInt 5) (Fin (IZR 5 / 50) : XR) eq_refl eq_refl eq_refl eq_refl (speed_int 5)) as H1.
  destruct (pn_iterate ex_m (pn_start s0) (Some ex_r0) s0) as [s1 o] eqn:I1. cbn [snd] in H1. subst o. rewrite Ei, En in I1.
  assert (A0 : pn_answers 2 (pn_start s0) ex_r0).
  { split; [intros a E; injection E as <-; exists [0; 0]; reflexivity|]. split; [intros v E; injection E as <-; eauto|discriminate]. }
  assert (V0 : pn_validate (pn_start s0) ex_r0 = Ok tt).
  { unfold pn_start. cbn [pn_validate ex_r0 pd_ref pd_pref pd_speed]. rewrite Ei, En. unfold pn_validate_ref, rp_validate_ref. cbn [xv map length Nat.eqb negb zipw forallb].
    assert (E : @nltb XR (Fin 1) (Fin 0) = false).
    { destruct (@nltb XR (Fin 1) (Fin 0)) eqn:E; [|reflexivity]. apply xltb_fin in E. lra. }
    rewrite E. reflexivity. }
  assert (R1 : pn_run ex_m next_said (said0 s0) (pn_answers 2) s0 s1 (PReq (CVec (xv [5; 5])) (xv [0; 0]) (xv [1; 1]) :: [pn_start s0])
                 (next_said (said0 s0) (pn_start s0) ex_r0 (PReq (CVec (xv [5; 5])) (xv [0; 0]) (xv [1; 1])))).
  { econstructor; [constructor|exact V0|exact A0|exact I1]. }
  assert (A1 : pn_answers 2 (PReq (CVec (xv [5; 5])) (xv [0; 0]) (xv [1; 1])) ex_keep).
  { split; [discriminate|]. split; [discriminate|]. intros l E. injection E as <-. reflexivity. }
  destruct (C74_navigation_answered_partial _ _ _ _ _ _ _ _ s1 _ _ _ _ _ ex_keep HS HB ex_hull_exact lp_solver_total R1 eq_refl eq_refl A1 eq_refl) as (z & Hz); [right; right; discriminate|].
  match type of Hz with snd ?t = _ => destruct t as [s2 o] eqn:I2 end. cbn [snd] in Hz. subst o.
  destruct (C54_mapping XR XR_ord ex_m _ _ _ _ s0 s1 _ _ _ _ _ ex_keep [CEqual; CEqual] s2 _ R1 eq_refl eq_refl eq_refl I2) as (r & Er & Lr & Hr).
  exists ex_m, (xv [0; 0]), (xv [1; 1]), (Some (xm ex_P)), s0, [0; 0], [1; 1], s1, (CVec (xv [5; 5])), (xv [0; 0]), (xv [1; 1]), [pn_start s0]. eexists. exists ex_keep. do 3 eexists.
  split; [exact HS|]. split; [exact HB|]. split; [exact ex_hull_exact|]. split; [exact R1|]. split; [reflexivity|]. split; [exact A1|]. split; [reflexivity|]. split; [exact I2|]. split; [exact Er|].
  intros (_ & HB2). specialize (Hr 0%nat). destruct Hr as (_ & _ & Hr). specialize (Hr eq_refl). destruct r as [|r0 r]; [discriminate|]. cbn in Hr. injection Hr as ->.
  inversion HB2 as [|? ? ? ? Hc _]; subst. apply xleb_fin in Hc. lra.
Qed.
Print Assumptions C54_in_box_refuted.
