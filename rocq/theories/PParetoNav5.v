(** * Pareto Navigator: sessions. *)
From Coq Require Import ZArith List Bool Lia Reals Lra.
From Verif Require Import Num NumXR Py Np Spec NpFacts XRFacts PAsf MRpm MParetoNav SParetoNav PParetoNav PParetoNav2 PParetoNav3 PParetoNav4.
Import ListNotations.

Section Session.
  Context {N : NumOps} (OL : OrdLaws N) (e : pn_env N).

  Lemma disc_projects objs (c : pn_point N) i f : pn_disc objs c = Ok i -> nth_error objs i = Some f ->
    exists v, simple_asf f c = Ok v /\ nisnan v = false /\ forall g v', In g objs -> simple_asf g c = Ok v' -> nisnan v' = false -> nleb v v' = true.
  Proof.
    intros H Hf. unfold pn_disc in H. apply rbind_ok in H. destruct H as (vals & H1 & H2). apply rseq_map_ok in H1.
    apply (npnanargmin_ok OL) in H2. destruct H2 as (v & Ev & Hn & Hmin).
    destruct (Forall2_nth_l _ _ _ _ _ H1 Hf) as (v1 & Ev1 & Hv1). assert (v1 = v) by congruence. subst v1.
    exists v. split; [exact Hv1|]. split; [exact Hn|]. intros g v' Hg Hv' Hn'. apply In_nth_error in Hg. destruct Hg as (j & Hj).
    destruct (Forall2_nth_l _ _ _ _ _ H1 Hj) as (v2 & Ev2 & Hv2). assert (v2 = v') by congruence. subst v2. exact (proj1 (Hmin j v' Ev2 Hn')).
  Qed.
  Lemma show_projects d s s' rq : is_true (pd_show d) = true -> pn_handle e d s = (s', Ok rq) ->
    exists c x f, ps_cur s = Some c /\ s' = p_po s (Some (x, f)) /\ rq = PSol c x f /\ pn_projects e c x f.
  Proof.
    intros Hs H. apply show_ok in H; [|exact Hs]. destruct H as (c & x & f & Hc & -> & -> & Hp). exists c, x, f. repeat (split; [assumption || reflexivity|]).
    unfold pn_projects. destruct (pe_prob e) as [evaluate minimize|objs decs].
    - destruct Hp as [H1 ->]. destruct c as [v|]; [|discriminate]. cbn in H1. apply rbind_ok in H1. destruct H1 as (o & H1 & H2). destruct o; [|discriminate]. injection H2 as ->. eauto.
    - destruct Hp as (i & H1 & H2 & H3). destruct (disc_projects _ _ _ _ H1 H2) as (v & V1 & V2 & V3). exists i, v. auto.
  Qed.

  (** What the last request says about the state. *)
  Definition shown (s : pn_state N) (q : pn_request N) : Prop :=
    match q with
    | PInit i n p => i = ps_ideal s /\ n = ps_nadir s /\ p = ps_pos s
    | PReq c i n => ps_cur s = Some c /\ i = ps_ideal s /\ n = ps_nadir s
    | PSol c x f => ps_cur s = Some c /\ ps_po s = Some (x, f) /\ pn_projects e c x f
    | PStop c x f => ps_cur s = Some c /\ ps_po s = Some (x, f) /\ pn_projects e c x f
    end.
  Lemma iterate_shown q d s s' q' : shown s q -> pn_iterate e q (Some d) s = (s', Ok q') -> shown s' q' /\
    match q, q' with
    | PInit _ _ _, PReq _ _ _ | PReq _ _ _, PReq _ _ _ => True
    | PReq c _ _, PSol c' _ _ => c' = c
    | PSol c x f, PReq c' _ _ => c' = c
    | PSol c x f, PStop c' x' f' | PStop c x f, PStop c' x' f' => c' = c /\ x' = x /\ f' = f /\ s' = s
    | _, _ => False
    end.
  Proof.
    intros HS H. destruct q as [i n p|c i n|c x f|c x f]; cbn [pn_iterate] in H.
    - unfold sbind, lift in H. cbn [attr] in H. apply initial_ok in H. destruct H as (q & c & v & a & -> & -> & _). cbn. auto.
    - destruct (is_true (pd_show d)) eqn:Es.
      + apply show_projects in H; [|exact Es]. destruct H as (c' & x & f & Hc & -> & -> & Hp). destruct HS as (H1 & _ & _). cbn. split; [auto|congruence].
      + apply handle_ok in H; [|exact Es]. destruct H as (a & c' & q & dir & z & _ & _ & _ & _ & _ & -> & ->). cbn. auto.
    - destruct HS as (H1 & H2 & H3). destruct (is_true (pd_sat d)) eqn:Es.
      + apply satisfied_ok in H; [|exact Es]. destruct H as (c' & x' & f' & Hc & Hp & -> & ->).
        assert (c' = c) by congruence. assert (x' = x /\ f' = f) as [-> ->] by (rewrite H2 in Hp; injection Hp; auto). subst c'. cbn. auto.
      + apply continue_ok in H; [|cbn; rewrite Es; reflexivity]. destruct H as (x' & f' & eqs & lo & hi & c' & Ha & Hc & ->).
        destruct Ha as [A1 A2 A3 A4 A5 A6 A7 A8 A9 A10 A11 (B1 & B2 & B3 & B4)]. cbn. split; [split; [congruence|auto]|congruence].
    - cbn in H. injection H as <- <-. cbn. auto.
  Qed.
  Lemma run_shown {G} (g : G -> _) g0 A s0 s q qs h : pn_run e g g0 A s0 s (q :: qs) h -> shown s q.
  Proof.
    intros H. remember (q :: qs) as l. revert q qs Heql. induction H as [|s q0 qs0 h d s' q' H IH Hv Ha Hi]; intros q qs E; injection E as <- <-.
    - cbn. auto.
    - eapply iterate_shown; [eapply IH; reflexivity|exact Hi].
  Qed.
  Lemma run_nonempty {G} (g : G -> _) g0 A s0 s l h : pn_run e g g0 A s0 s l h -> exists q qs, l = q :: qs.
  Proof. intros H. inversion H; eauto. Qed.
  (** A session is a history. *)
  Lemma run_hist {G} (g : G -> _) g0 A s0 s l h : pn_run e g g0 A s0 s l h -> pn_hist e (s0, []) (s, l).
  Proof.
    intros H. induction H as [|s q qs h d s' q' H IH Hv Ha Hi].
    - eapply pn_hist_step; [apply pn_hist_refl|constructor].
    - eapply pn_hist_step; [exact IH|]. apply (pn_step_iterate e s (q :: qs) q (Some d) s' (Ok q')); [left; reflexivity| |exact Hi].
      intros d' E. injection E as <-. exact Hv.
  Qed.

  Lemma ref_valid_len r i n : pn_validate_ref (N:=N) r i n = Ok tt -> exists q, r = RArr q /\ length q = length i.
  Proof.
    unfold pn_validate_ref. destruct (rp_validate_ref r i n) as [u|x] eqn:E; [|destruct x; discriminate]. intros _.
    destruct r as [q| |]; cbn in E; try discriminate. destruct (Nat.eqb_spec (length i) (length q)) as [El|El]; [|discriminate]. eauto.
  Qed.
End Session.

Open Scope R_scope.

(** ** The step parameter *)
Lemma speed_int z : pn_speed_of (N:=XR) (VInt z) = Ok (Fin (IZR z / 50) : XR).
Proof.
  unfold pn_speed_of. cbn [rbind]. f_equal. change (@nofZ XR z) with (Fin (IZR z) : XR). change (@nofZ XR 5) with (Fin 5 : XR). change (@nofZ XR 10) with (Fin 10 : XR).
  rewrite xdiv_fin by lra. rewrite xdiv_fin by lra. f_equal. lra.
Qed.
Lemma neg_xr a : @nmul XR (Fin a) (nofZ (-1)) = Fin (- a).
Proof. change (@nmul XR (Fin a) (nofZ (-1))) with (Fin (a * IZR (-1))). f_equal. lra. Qed.
Lemma check_speed_range {N : NumOps} (v : pyval N) : pn_check_speed v = Ok tt <-> exists z, py_int v = Some z /\ (1 <= z <= 5)%Z.
Proof.
  unfold pn_check_speed. destruct (py_int v) as [z|]; [|split; [discriminate|intros (z & E & _); discriminate]].
  destruct (Z.leb_spec 1 z), (Z.leb_spec z 5); cbn; (split; [intros H1|intros (z' & E & H1)]); try discriminate; try (injection E as <-; lia); auto; eauto.
Qed.

Lemma some_fin (a b : R) : a = b -> Some (Fin a : XR) = Some (Fin b : XR).
Proof. congruence. Qed.

Definition gear_ok (s : pn_state XR) (g : pn_gear) : Prop :=
  (1 <= g_speed g <= 5)%Z /\ (g_sign g = 1 \/ g_sign g = -1)%Z /\ ps_speed s = Some (Fin (IZR (g_sign g) * IZR (g_speed g) / 50) : XR).
Lemma valid_speed_init (q : pn_request XR) d : (match q with PInit _ _ _ => True | _ => False end) -> pn_validate q d = Ok tt -> exists v, pd_speed d = Some v /\ pn_check_speed v = Ok tt.
Proof.
  destruct q as [i n p| | |]; try contradiction. intros _. cbn [pn_validate]. intros H. apply rbind_ok in H. destruct H as (u & _ & H). destruct (pd_speed d) as [v|]; [eauto|discriminate].
Qed.
Lemma valid_speed_req c i n (d : pn_dict XR) v : is_true (pd_show d) = false -> pn_validate (PReq c i n) d = Ok tt -> pd_speed d = Some v -> pn_check_speed v = Ok tt.
Proof.
  cbn [pn_validate]. intros -> H E. rewrite E in H. apply rbind_ok in H. destruct H as ([] & H & _). exact H.
Qed.
Lemma gear_step e q d s s' q' g : (forall i n p, q <> PInit i n p) -> gear_ok s g -> pn_validate q d = Ok tt -> int_speeds q d ->
  pn_iterate e q (Some d) s = (s', Ok q') -> gear_ok s' (next_gear g q d q').
Proof.
  intros Hq (G1 & G2 & G3) Hv Hint H. destruct q as [i n p|c i n|c x f|c x f]; cbn [pn_iterate] in H; [edestruct Hq; reflexivity| | |].
  - destruct (is_true (pd_show d)) eqn:Es.
    + apply show_ok in H; [|exact Es]. destruct H as (c' & x & f & _ & -> & -> & _). cbn. split; auto.
    + apply handle_ok in H; [|exact Es]. destruct H as (a & c' & q & dir & z & E1 & _ & _ & _ & _ & -> & ->).
      unfold pn_step_of in E1. cbn [next_gear]. unfold gear_ok. cbn [p_cur ps_speed p_ref p_speed g_speed g_sign]. unfold pn_back.
      destruct (pd_speed d) as [v|] eqn:Ev.
      * pose proof (valid_speed_req _ _ _ _ _ Es Hv Ev) as Hc. destruct (Hint _ Ev) as (zv & ->).
        apply check_speed_range in Hc. destruct Hc as (z' & E & Hr). cbn in E. injection E as <-.
        rewrite speed_int in E1. cbn [rbind] in E1. injection E1 as <-. split; [exact Hr|].
        assert (HZ : 1 <= IZR zv) by (apply IZR_le; lia).
        destruct (is_true (pd_back d)).
        -- split; [auto|]. apply some_fin. lra.
        -- split; [auto|]. apply (some_fin (Rabs (IZR zv / 50))). rewrite Rabs_right by lra. lra.
      * rewrite G3 in E1. cbn [attr rbind] in E1. injection E1 as <-. split; [exact G1|].
        assert (HZ : 1 <= IZR (g_speed g)) by (apply IZR_le; lia).
        destruct (is_true (pd_back d)).
        -- split; [lia|]. apply (some_fin (IZR (g_sign g) * IZR (g_speed g) / 50 * IZR (-1))). rewrite opp_IZR. lra.
        -- split; [auto|]. apply (some_fin (Rabs (IZR (g_sign g) * IZR (g_speed g) / 50))).
           destruct G2 as [-> | ->]; [rewrite Rabs_right; lra|rewrite Rabs_left; lra].
  - cbn [next_gear]. unfold gear_ok. destruct (is_true (pd_sat d)) eqn:Es.
    + apply satisfied_ok in H; [|exact Es]. destruct H as (c' & x' & f' & _ & _ & -> & ->). auto.
    + apply continue_ok in H; [|cbn; rewrite Es; reflexivity]. destruct H as (x' & f' & eqs & lo & hi & c' & Ha & Hc & ->).
      destruct Ha as [_ _ _ _ _ _ _ _ _ _ _ (B1 & _)]. rewrite B1. auto.
  - cbn in H. injection H as <- <-. cbn. unfold gear_ok. auto.
Qed.
Lemma gear_init e q d s s' q' g : (match q with PInit _ _ _ => True | _ => False end) -> pn_validate q d = Ok tt -> int_speeds q d ->
  pn_iterate e q (Some d) s = (s', Ok q') -> gear_ok s' (next_gear g q d q').
Proof.
  intros Hq Hv Hint H. destruct (valid_speed_init q d Hq Hv) as (v & Ev & Hc). destruct q as [i n p| | |]; try contradiction.
  cbn [pn_iterate] in H. unfold sbind, lift in H. cbn [attr] in H. apply initial_ok in H. destruct H as (q & c & v' & a & -> & -> & Ev' & Ea & _).
  assert (v' = v) by congruence. subst v'. destruct (Hint _ Ev) as (z & ->). rewrite speed_int in Ea. injection Ea as <-.
  apply check_speed_range in Hc. destruct Hc as (z' & E & Hr). cbn in E. injection E as <-.
  cbn [next_gear]. rewrite Ev. unfold gear_ok. cbn. split; [exact Hr|]. split; [auto|]. apply some_fin. lra.
Qed.
Lemma run_gear e g0 (A : pn_request XR -> pn_dict XR -> Prop) s0 s q qs h : (forall q d, A q d -> int_speeds q d) ->
  pn_run e next_gear g0 A s0 s (q :: qs) h -> match q with PInit _ _ _ => qs = [] | _ => gear_ok s h end.
Proof.
  intros HA H. remember (q :: qs) as l. revert q qs Heql. induction H as [|s q0 qs0 h d s' q' H IH Hv Ha Hi]; intros q qs E; injection E as <- <-.
  - reflexivity.
  - specialize (IH _ _ eq_refl). pose proof (iterate_shown XR_ord e q0 d s s' q' (run_shown XR_ord e _ _ _ _ _ _ _ _ H) Hi) as [_ Hm].
    assert (Hq' : match q' with PInit _ _ _ => False | _ => True end) by (destruct q0, q'; auto).
    assert (HG : gear_ok s' (next_gear h q0 d q')).
    { destruct q0 eqn:Eq0.
      - eapply gear_init; [exact I|exact Hv|apply HA; exact Ha|exact Hi].
      - eapply gear_step; [discriminate|exact IH|exact Hv|apply HA; exact Ha|exact Hi].
      - eapply gear_step; [discriminate|exact IH|exact Hv|apply HA; exact Ha|exact Hi].
      - eapply gear_step; [discriminate|exact IH|exact Hv|apply HA; exact Ha|exact Hi]. }
    destruct q'; [contradiction|exact HG|exact HG|exact HG].
Qed.
