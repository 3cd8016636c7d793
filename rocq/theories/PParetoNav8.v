(** * Pareto Navigator: what a session has said, and where it starts. *)
From Coq Require Import ZArith List Bool Lia Reals Lra.
From Verif Require Import Num NumXR Py Np Spec NpFacts XRFacts PAsf MRpm MParetoNav SParetoNav PParetoNav PParetoNav2 PParetoNav3 PParetoNav4 PParetoNav5 PParetoNav6 PParetoNav7.
Import ListNotations.
Open Scope R_scope.

Section Runs.
  Context {N : NumOps} (e : pn_env N).
  Lemma run_map {G G'} (f : G -> G') (g : G -> _) (g' : G' -> _) g0 A s0 s l h :
    (forall h q d q', f (g h q d q') = g' (f h) q d q') -> pn_run e g g0 A s0 s l h -> pn_run e g' (f g0) A s0 s l (f h).
  Proof.
    intros Hf H. induction H as [|s q qs h d s' q' H IH Hv Ha Hi]; [constructor|]. rewrite Hf. econstructor; eauto.
  Qed.
  Lemma run_weaken {G} (g : G -> _) g0 (A B : pn_request N -> pn_dict N -> Prop) s0 s l h :
    (forall q d, A q d -> B q d) -> pn_run e g g0 A s0 s l h -> pn_run e g g0 B s0 s l h.
  Proof. intros HA H. induction H as [|s q qs h d s' q' H IH Hv Ha Hi]; [constructor|]. econstructor; eauto. Qed.

  Lemma ctor_hull k i0 n0 given s0 : (forall pts eqs, pe_hull e pts = Ok eqs -> is_matrix (S k) eqs) ->
    pn_ctor e i0 n0 given = Ok s0 -> exists eqs, approx_of e k s0 (ps_pos s0) eqs.
  Proof.
    intros HH H. unfold pn_ctor in H. apply rbind_ok in H. destruct H as (pos & E1 & H). apply rbind_ok in H. destruct H as (en & E2 & H). apply rbind_ok in H. destruct H as ([A b] & E3 & H).
    apply rbind_ok in H. destruct H as (w & E4 & H). apply rbind_ok in H. destruct H as (A' & E5 & H). injection H as <-. cbn [fst snd] in *.
    unfold pn_polyhedral in E3. apply rbind_ok in E3. destruct E3 as (eqs & E3 & E6). injection E6 as E6 E6'.
    exists eqs. constructor; cbn; auto.
    - eapply HH; eassumption.
    - rewrite <- E6 in E5. exact E5.
  Qed.
End Runs.

Lemma nth_error_same {A} (a : list A) : forall b, (forall i, nth_error a i = nth_error b i) -> a = b.
Proof.
  induction a as [|x a IH]; intros [|y b] H; [reflexivity|specialize (H 0%nat); discriminate|specialize (H 0%nat); discriminate|].
  f_equal; [specialize (H 0%nat); cbn in H; congruence|]. apply IH. intros i. exact (H (S i)).
Qed.
Lemma class_target_spec {N : NumOps} (ideal nadir v : list N) l q : length ideal = length l -> length nadir = length l -> length v = length l ->
  pn_class_ref ideal nadir (CVec v) l = Ok q -> q = class_target ideal nadir v l.
Proof.
  intros L1 L2 L3 H. destruct (class_ref_spec _ _ _ _ _ H) as (Hl & Hs).
  assert (Lt : length (class_target ideal nadir v l) = length l).
  { unfold class_target. rewrite zipw_length, !combine_length. lia. }
  apply nth_error_same. intros i. destruct (nth_error l i) as [cl|] eqn:El.
  - assert (Hi : (i < length l)%nat) by (eapply nth_lt; eassumption).
    destruct (nth_ex q i) as (x & Ex); [lia|]. rewrite Ex. symmetry.
    destruct (nth_ex ideal i) as (a & Ea); [lia|]. destruct (nth_ex nadir i) as (b & Eb); [lia|]. destruct (nth_ex v i) as (c & Ec); [lia|].
    unfold class_target. rewrite zipw_nth, El.
    assert (Hc : nth_error (combine ideal (combine nadir v)) i = Some (a, (b, c))).
    { clear -Ea Eb Ec. revert nadir v i Ea Eb Ec. induction ideal as [|y ideal IH]; intros [|y' nadir] [|y'' v] [|i] Ea Eb Ec; try discriminate; cbn in *.
      - congruence.
      - apply IH; assumption. }
    rewrite Hc. cbn. specialize (Hs _ _ _ El Ex). destruct cl; try congruence. contradiction.
  - apply nth_error_None in El. rewrite (proj2 (nth_error_None q i)) by lia. rewrite (proj2 (nth_error_None (class_target ideal nadir v l) i)) by lia. reflexivity.
Qed.

Section Said.
  Context (e : pn_env XR) (k : nat) (s0 : pn_state XR) (Hk : (2 <= k)%nat) (HLP : lp_exact (pe_lp e))
    (HH : forall pts eqs, pe_hull e pts = Ok eqs -> is_matrix (S k) eqs)
    (HP : match pe_prob e with PMO evaluate _ => forall x, length (evaluate x) = k | PDisc objs decs => objs <> [] /\ is_matrix k objs end)
    (HR : forall pts eqs, pe_hull e pts = Ok eqs -> exists r, eqs = xm r)
    (HE : match pe_prob e with PMO evaluate _ => forall x, exists r, evaluate x = xv r | PDisc objs _ => exists r, objs = xm r end)
    (HD : pn_real_decisions e)
    (HO0 : pn_ok e k s0) (HL0 : pn_rl s0) (HN0 : ps_cur s0 = None /\ ps_ref s0 = None /\ ps_speed s0 = None).

  Lemma said_step q d s s' q' (h : pn_said XR) : pn_ok e k s -> pn_rl s -> pn_fin k s -> shown e s q -> pn_validate q d = Ok tt -> pn_answers k q d ->
    pn_iterate e q (Some d) s = (s', Ok q') -> ps_ref s = sd_target h -> ps_pos s = sd_points h ->
    ps_ref s' = sd_target (next_said h q d q') /\ ps_pos s' = sd_points (next_said h q d q').
  Proof.
    intros HO HL HF HS Hv An H Et Ep. pose proof An as (An1 & An2 & An3). pose proof HO as [HO1 HO2 _ _ _ _].
    destruct q as [i n p|c i n|c x f|c x f]; cbn [pn_iterate] in H.
    - unfold sbind, lift in H. cbn [attr] in H. apply initial_ok in H. destruct H as (q & c & v & a & -> & -> & Ev & Ea & Hm). cbn.
      split; [|exact Ep]. destruct (pd_ref d) as [ra|]; [destruct Hm as (q' & -> & -> & _); reflexivity|]. destruct Hm as (-> & _). exact Et.
    - destruct (is_true (pd_show d)) eqn:Es.
      + apply show_ok in H; [|exact Es]. destruct H as (c' & x & f & _ & -> & -> & _). cbn. destruct c; auto.
      + destruct HS as (Ec & Ei & En). assert (Hi : length i = k) by (subst i; exact HO1).
        destruct (nav_fin e k Hk d s s' q' c i n HO HL HF Hi Es Hv An H) as (cu & r & a & F1 & F2 & F3 & F4).
        destruct (nav_closest e k Hk HR d s s' q' cu r a HLP HO HL Es H F1 F2 F3 F4) as (Lc & _).
        assert (Ecc : c = CVec (xv cu : list XR)) by congruence. subst c.
        pose proof H as H'. apply handle_ok in H'; [|exact Es]. destruct H' as (a' & c' & q & dir & z & _ & E2 & E3 & _ & _ & -> & ->).
        cbn. split; [|exact Ep]. cbn in F2. rewrite Ec in E2. injection E2 as <-. unfold pn_ref_of in E3.
        destruct (pd_ref d) as [ra|] eqn:Er.
        * destruct ra; try discriminate. congruence.
        * destruct (pd_class d) as [l|] eqn:El; [|rewrite <- Et; destruct (ps_ref s); [injection E3 as <-; reflexivity|discriminate]].
          f_equal. rewrite Ei, En. apply class_target_spec; [rewrite (An3 _ eq_refl); exact HO1|rewrite (An3 _ eq_refl); exact HO2|rewrite (An3 _ eq_refl), xv_length; exact Lc|exact E3].
    - destruct (is_true (pd_sat d)) eqn:Es.
      + apply satisfied_ok in H; [|exact Es]. destruct H as (c' & x' & f' & _ & _ & -> & ->). cbn. auto.
      + apply continue_ok in H; [|cbn; rewrite Es; reflexivity]. destruct H as (x' & f' & eqs & lo & hi & c' & Ha & Hc & ->).
        destruct Ha as [D1 _ D3 _ _ _ _ _ _ _ _ (B1 & B2 & B3 & B4)]. cbn. rewrite B2, D3, Ep. split; [exact Et|].
        destruct HS as (_ & Epo & _). rewrite Epo in D1. injection D1 as <- <-. reflexivity.
    - cbn in H. injection H as <- <-. cbn. auto.
  Qed.
  Lemma run_said (A : pn_request XR -> pn_dict XR -> Prop) s l h : (forall q d, A q d -> pn_answers k q d) ->
    pn_run e next_said (said0 s0) A s0 s l h -> ps_ref s = sd_target h /\ ps_pos s = sd_points h.
  Proof.
    intros HA H. induction H as [|s q qs h d s' q' H IH Hv Ha Hi].
    - destruct HN0 as (_ & E & _). cbn. auto.
    - destruct IH as (I1 & I2). destruct (run_fin e k s0 Hk HLP HH HP HR HE HD HO0 HL0 HN0 next_said _ A s _ h HA H) as (J1 & J2 & J3).
      eapply said_step; eauto. eapply (run_shown XR_ord); eassumption.
  Qed.
  Lemma run_said_gear (A : pn_request XR -> pn_dict XR -> Prop) s q qs h : (forall q d, A q d -> pn_answers k q d) ->
    pn_run e next_said (said0 s0) A s0 s (q :: qs) h -> match q with PInit _ _ _ => qs = [] | _ => gear_ok s (sd_gear h) end.
  Proof.
    intros HA H. eapply (run_map e sd_gear next_said next_gear) in H; [|reflexivity].
    eapply run_gear; [|exact H]. intros q' d' Ha. apply (HA _ _ Ha).
  Qed.
End Said.

Lemma setting_facts k e i0 n0 given s0 ideal nadir : pn_setting k e i0 n0 given s0 ideal nadir ->
  (2 <= k)%nat /\ (forall pts eqs, pe_hull e pts = Ok eqs -> is_matrix (S k) eqs) /\
  (match pe_prob e with PMO evaluate _ => forall x, length (evaluate x) = k | PDisc objs decs => objs <> [] /\ is_matrix k objs end) /\
  (forall pts eqs, pe_hull e pts = Ok eqs -> exists r, eqs = xm r) /\
  (match pe_prob e with PMO evaluate _ => forall x, exists r, evaluate x = xv r | PDisc objs _ => exists r, objs = xm r end) /\
  pn_ok e k s0 /\ pn_rl s0 /\ (ps_cur s0 = None /\ ps_ref s0 = None /\ ps_speed s0 = None) /\ (exists eqs, approx_of e k s0 (ps_pos s0) eqs).
Proof.
  intros ((Hk & L1 & L2 & Hg & HH & HP) & HC & (Ei & En & Hlt & Hp & HR & HE) & HLP & HD).
  destruct (ctor_ok e k Hk HH HP i0 n0 given s0 L1 L2 Hg HC) as (HO & Ppo & Pc & Pr & Ps & _ & _).
  repeat (split; [assumption|]). split; [|split; [auto|eapply ctor_hull; eassumption]].
  constructor; [eauto|exact Hp|]. rewrite Ppo. discriminate.
Qed.

(** One navigation call of a session, in terms of what has been said. *)
Lemma session_nav k e i0 n0 given s0 ideal0 nadir0 (A : pn_request XR -> pn_dict XR -> Prop) s c i n qs h d s' q' :
  pn_setting k e i0 n0 given s0 ideal0 nadir0 -> (forall q d, A q d -> pn_answers k q d) ->
  pn_run e next_said (said0 s0) A s0 s (PReq c i n :: qs) h -> pn_validate (PReq c i n) d = Ok tt -> pn_answers k (PReq c i n) d -> pn_shows d = false ->
  pn_iterate e (PReq c i n) (Some d) s = (s', Ok q') ->
  exists ideal nadir eqs cu r z, c = CVec (xv cu) /\ i = xv ideal /\ n = xv nadir /\ Forall2 Rlt ideal nadir /\ length cu = k /\ length r = k /\
    length ideal = k /\ length nadir = k /\
    pe_hull e (sd_points h) = Ok (xm eqs) /\ sd_target (next_said h (PReq c i n) d q') = Some (xv r) /\
    q' = PReq (CVec (xv z)) i n /\
    closest eqs ideal nadir (rcomb (1 - step_of (sd_gear (next_said h (PReq c i n) d q'))) cu (step_of (sd_gear (next_said h (PReq c i n) d q'))) r) z.
Proof.
  intros HS HA Hr Hv An Es Hi. destruct (setting_facts _ _ _ _ _ _ _ _ HS) as (Hk & HH & HP & HR & HE & HO0 & HL0 & HN0 & HX0).
  destruct HS as (_ & _ & _ & HLP & HD).
  destruct (run_fin e k s0 Hk HLP HH HP HR HE HD HO0 HL0 HN0 next_said _ A s _ h HA Hr) as (J1 & J2 & J3).
  pose proof (run_shown XR_ord e next_said _ A s0 s _ qs h Hr) as HSh. pose proof HSh as (Ec & Ei & En).
  destruct (run_said e k s0 Hk HLP HH HP HR HE HD HO0 HL0 HN0 A s _ h HA Hr) as (T1 & T2).
  pose proof (said_step e k Hk HLP HR _ d s s' q' h J1 J2 J3 HSh Hv An Hi T1 T2) as (U1 & _).
  pose proof (run_said_gear e k s0 A s _ qs h HA Hr) as G. cbn in G.
  pose proof (gear_step e (PReq c i n) d s s' q' (sd_gear h) ltac:(intros; discriminate) G Hv (proj1 (proj2 An)) Hi) as (_ & _ & G').
  assert (Li : length i = k) by (subst i; apply (ok_ideal _ _ _ J1)). cbn [pn_iterate] in Hi.
  destruct (nav_fin e k Hk d s s' q' c i n J1 J2 J3 Li Es Hv An Hi) as (cu & r & a & F1 & F2 & F3 & F4).
  destruct (nav_closest e k Hk HR d s s' q' cu r a HLP J1 J2 Es Hi F1 F2 F3 F4) as (Lc & ideal & nadir & pts & extra & eqs & z & K1 & K2 & K3 & K4 & K5 & K6 & K7 & K8 & K9 & K10).
  destruct (run_hull e k s0 HH next_said _ A s _ h HX0 Hr) as (eqs' & [X1 _ _ _ _]).
  destruct K6 as [->|(er & K6)]; [|congruence]. rewrite app_nil_r in K4. subst pts.
  exists ideal, nadir, eqs, cu, r, z. assert (a = step_of (next_gear (sd_gear h) (PReq c i n) d q')) by (unfold step_of; congruence). subst a.
  assert (L1 : length ideal = k) by (pose proof (ok_ideal _ _ _ J1) as L; rewrite K1, xv_length in L; exact L).
  assert (L2 : length nadir = k) by (pose proof (ok_nadir _ _ _ J1) as L; rewrite K2, xv_length in L; exact L).
  split; [congruence|]. split; [congruence|]. split; [congruence|]. repeat (split; [assumption|]). split; [congruence|]. split; [congruence|]. split; [congruence|]. exact K10.
Qed.

Lemma xv_nan_free r : @nan_free XR (xv r).
Proof. unfold nan_free. apply Forall_forall. intros x Hx. unfold xv in Hx. apply in_map_iff in Hx. destruct Hx as (y & <- & _). apply xisnan_fin. Qed.
Lemma rl_nn s : pn_rl s -> pn_nn s.
Proof.
  intros [(ideal & nadir & Ei & En & _) (pos & Ep) Hpo]. constructor.
  - rewrite Ei. apply xv_nan_free.
  - rewrite En. apply xv_nan_free.
  - rewrite Ep. apply Forall_forall. intros x Hx. unfold xm in Hx. apply in_map_iff in Hx. destruct Hx as (y & <- & _). apply xv_nan_free.
  - intros x f E. destruct (Hpo _ _ E) as (r & ->). apply xv_nan_free.
Qed.
Lemma run_encloses k e i0 n0 given s0 ideal0 nadir0 {G} (g : G -> _) g0 A s l h :
  pn_setting k e i0 n0 given s0 ideal0 nadir0 -> encloses0 s0 -> pn_run e g g0 A s0 s l h -> pn_ok e k s /\ pn_rl s /\ encloses s.
Proof.
  intros HS HB Hr. destruct (setting_facts _ _ _ _ _ _ _ _ HS) as (Hk & HH & HP & HR & HE & HO0 & HL0 & HN0 & HX0).
  induction Hr as [|s q qs h d s' q' H IH Hv Ha Hi]; [auto|]. destruct IH as (I1 & I2 & I3).
  split; [eapply iterate_ok_inv; eauto|]. split; [eapply iterate_rl; eauto|]. unfold encloses in *.
  destruct q as [i n p|c i n|c x f|c x f]; cbn [pn_iterate] in Hi.
  - unfold sbind, lift in Hi. cbn [attr] in Hi. apply initial_ok in Hi. destruct Hi as (q & c & v & a & -> & _). exact I3.
  - destruct (is_true (pd_show d)) eqn:Es.
    + apply show_ok in Hi; [|exact Es]. destruct Hi as (c' & x & f & _ & -> & _). exact I3.
    + apply handle_ok in Hi; [|exact Es]. destruct Hi as (? & ? & ? & ? & z' & _ & _ & _ & _ & _ & -> & _). exact I3.
  - destruct (is_true (pd_sat d)) eqn:Es.
    + apply satisfied_ok in Hi; [|exact Es]. destruct Hi as (c' & x' & f' & _ & _ & -> & ->). exact I3.
    + apply continue_ok in Hi; [|cbn; rewrite Es; reflexivity]. destruct Hi as (x' & f' & eqs' & lo & hi & c' & Hd & Hc & ->).
      destruct (added_wide XR_ord e k Hk s s' f' x' eqs' lo hi I1 (rl_nn _ I2) Hd) as (_ & _ & W). exact W.
  - cbn in Hi. injection Hi as <- <-. exact I3.
Qed.
