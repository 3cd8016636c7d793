(** * E-NAUTILUS: objectives in other units (C112), the calls and the histories. *)
From Coq Require Import ZArith Reals Lra List Bool Lia.
From Verif Require Import Num NumXR Py Np Spec NpFacts XRFacts MENautilus SENUnits PNavShift PENUnits.
Import ListNotations.
Open Scope R_scope.

Section U.
  Context (us : list unit_change) (HU : proper_units us).
  Let k := length us.
  Notation cv := (conv_vec us).
  Notation cm := (conv_rows us).
  Notation st := (en_state XR).

  Definition cs (s : st) : st :=
    MkES (cm (es_front s)) (cv (es_ideal s)) (cv (es_nadir s)) (es_vars s) (cv (es_ub s)) (cv (es_lb s)) (es_idx s) (option_map cv (es_pref s)) (es_npoints s) (es_left s).
  Record wf (s : st) : Prop := MkWf {
    wf_front : is_matrix k (es_front s);
    wf_ideal : length (es_ideal s) = k; wf_nadir : length (es_nadir s) = k;
    wf_lb : length (es_lb s) = k; wf_ub : length (es_ub s) = k;
    wf_pref : forall p, es_pref s = Some p -> length p = k;
    wf_vars : forall v, es_vars s = Some v -> length v = length (es_front s) }.
  Definition wfq (q : en_request XR) : Prop :=
    match q with EReq _ c => is_matrix k (ec_points c) /\ is_matrix k (ec_lb c) /\ is_matrix k (ec_ub c) | _ => True end.
  Definition qrel q1 q2 := corresponds us q1 q2 /\ wfq q1.

  Definition sm {A B} (P : A -> B -> Prop) (m1 : SE st A) (m2 : SE st B) (s : st) : Prop :=
    wf (fst (m1 s)) /\ fst (m2 (cs s)) = cs (fst (m1 s)) /\ rr P (snd (m1 s)) (snd (m2 (cs s))).
  Lemma sm_bind {A B C D} (P : A -> B -> Prop) (Q : C -> D -> Prop) m1 m2 (f : A -> SE st C) (g : B -> SE st D) s :
    sm P m1 m2 s -> (forall a b s', wf s' -> P a b -> sm Q (f a) (g b) s') -> sm Q (sbind m1 f) (sbind m2 g) s.
  Proof.
    intros (W & E & R) H. unfold sm, sbind. destruct (m1 s) as [s1 r1], (m2 (cs s)) as [s2 r2]. cbn [fst snd] in *. subst s2.
    destruct r1 as [a|e1], r2 as [b|e2]; cbn [rr] in R; try contradiction; cbn [fst snd]; [exact (H a b s1 W R)|]. subst. repeat split; auto; apply W.
  Qed.
  Lemma sm_lift {A B} (P : A -> B -> Prop) r1 r2 s : wf s -> rr P r1 r2 -> sm P (lift r1) (lift r2) s.
  Proof. intros W H. unfold sm, lift. cbn [fst snd]. auto. Qed.
  Lemma sm_get s : wf s -> sm (fun a b => b = cs a /\ a = s) sget sget s.
  Proof. intros W. unfold sm, sget. cbn [fst snd rr]. auto. Qed.
  Lemma sm_mod f g s : wf (f s) -> g (cs s) = cs (f s) -> sm (fun _ _ => True) (smod f) (smod g) s.
  Proof. intros W E. unfold sm, smod. cbn [fst snd rr]. auto. Qed.
  Lemma rr_refl {A} (r : res A) : rr eq r r.
  Proof. destruct r; reflexivity. Qed.
  Lemma rr_map {A B} (f : A -> B) (P : A -> Prop) (r : res A) (r' : res B) : r' = rmap f r -> (forall a, r = Ok a -> P a) -> rr (fun a b => b = f a /\ P a) r r'.
  Proof. intros -> H. destruct r; cbn; auto. Qed.

  (** The final solution. *)
  Lemma stop_conv s p : wf s -> length p = k -> rr qrel (en_stop s p) (en_stop (cs s) (cv p)).
  Proof.
    intros W Hp. unfold en_stop. cbn [es_vars es_front cs]. destruct (es_vars s) as [vars|] eqn:EV; [|cbn; repeat split; auto; discriminate].
    destruct (subs_conv us (es_front s) p (wf_front s W) Hp) as (a & a' & E1 & E2 & L1 & L2 & H). rewrite E1, E2. cbn [rbind].
    pose proof (wf_vars s W vars EV) as LV. rewrite <- L1 in LV, L2.
    assert (G : forall b : list (list XR), length b = length vars -> b <> [] -> exists i x, npargmin (map (fun d => vnorm (map nabs d)) b) = Ok i /\ at_ vars i = Ok x).
    { intros b Lb Nb. destruct (npargmin (map (fun d => vnorm (map nabs d)) b)) as [i|e] eqn:EA; [|destruct b; [congruence|discriminate]].
      apply npargmin_lt in EA. rewrite map_length in EA. exists i. destruct (at_ vars i) as [x|e] eqn:EX; [eauto|]. exfalso. unfold at_ in EX. destruct (nth_error vars i) eqn:EN; [discriminate|]. apply nth_error_None in EN. lia. }
    destruct a as [|d0 a]; [destruct a'; [reflexivity|discriminate]|].
    destruct a' as [|d0' a']; [discriminate|].
    destruct (G (d0 :: a) ltac:(lia) ltac:(discriminate)) as (i & x & EI & EX), (G (d0' :: a') ltac:(lia) ltac:(discriminate)) as (i' & x' & EI' & EX').
    rewrite EI, EI'. cbn [rbind]. rewrite EX, EX'. cbn [rbind rr]. split; [|exact I]. cbn [corresponds]. repeat split; try discriminate.
    intros HC. destruct (common_exists us HU HC) as (f & Hf & HF). specialize (H f Hf HF). f_equal.
    assert (EE : i' = i); [|congruence]. rewrite H in EI'.
    assert (Nm : map (fun d => vnorm (map nabs d)) (map (map (sc f)) (d0 :: a)) = map (sc f) (map (fun d => vnorm (map nabs d)) (d0 :: a))).
    { rewrite !map_map. apply map_ext. intros v. rewrite <- sc_norm by exact Hf. f_equal. rewrite !map_map. apply map_ext. intros z. apply sc_abs. exact Hf. }
    rewrite Nm in EI'. unfold npargmin in EI, EI'. cbn [map] in EI, EI'. rewrite sc_argmin in EI' by exact Hf. congruence.
  Qed.

  Lemma mk_conv c c' : wfq (EReq 0 c) -> corresponds us (EReq 0 c) (EReq 0 c') -> rr qrel (en_mk_request c) (en_mk_request c').
  Proof.
    intros W (_ & H). unfold en_mk_request. destruct H as (H1 & H2 & H3 & H4). rewrite H3, max_index_conv by apply W.
    destruct (en_max_index (ec_points c)) as [m|e]; cbn [rmap rr]; [|reflexivity]. split; [|exact W]. cbn [corresponds]. auto.
  Qed.
  Lemma next_conv km1 km2 s : same_clusters us km1 km2 -> wf s -> sm qrel (en_next km1) (en_next km2) s.
  Proof.
    intros HK W. unfold en_next.
    eapply sm_bind; [apply sm_get; exact W|]. intros s1 s2 s' W' [-> ->]. cbn [es_npoints es_pref es_left es_front es_idx es_nadir es_ideal cs].
    eapply (sm_bind eq); [apply sm_lift; [exact W'|apply rr_refl]|]. intros np ? sa Wa <-.
    eapply (sm_bind (fun p p' => p' = cv p /\ length p = k)); [apply sm_lift; [exact Wa|]|].
    { destruct (es_pref s) as [p|] eqn:E; cbn; [|reflexivity]. split; [reflexivity|]. apply (wf_pref s W). exact E. }
    intros p ? sb Wb (-> & Hp).
    eapply (sm_bind eq); [apply sm_lift; [exact Wb|apply rr_refl]|]. intros n ? sc' Wc <-.
    eapply sm_bind; [apply sm_lift; [exact Wc|apply (rep_conv us km1 km2 _ _ _ HK (wf_front s W))]|]. intros zb ? sd Wd (-> & Hz).
    eapply sm_bind; [apply sm_lift; [exact Wd|apply (inter_conv us p zb n Hp Hz)]|]. intros zs ? se We (-> & Hzs).
    rewrite (wf_nadir s W), (cv_length us) by exact (wf_nadir s W).
    eapply sm_bind; [apply sm_lift; [exact We|apply (bounds_conv us HU _ _ (wf_front s W) Hzs)]|]. intros b ? sf Wf (-> & Hb1 & Hb2).
    eapply sm_bind; [apply sm_lift; [exact Wf|apply (dist_conv us HU _ _ _ Hzs Hz (wf_nadir s W))]|]. intros d d' sg Wg Hd.
    apply sm_lift; [exact Wg|]. apply mk_conv; [cbn; auto|]. cbn. repeat split; auto.
  Qed.
  Lemma wf_same s s' : wf s -> es_front s' = es_front s -> es_ideal s' = es_ideal s -> es_nadir s' = es_nadir s -> es_vars s' = es_vars s ->
    length (es_lb s') = k -> length (es_ub s') = k -> (forall p, es_pref s' = Some p -> length p = k) -> wf s'.
  Proof. intros [? ? ? ? ? ? ?] E1 E2 E3 E4 ? ? ?. constructor; rewrite ?E1, ?E2, ?E3, ?E4; auto. Qed.
  Lemma initial_conv km1 km2 d1 d2 s : same_clusters us km1 km2 -> same_answer us d1 d2 -> wf s ->
    sm qrel (en_handle_initial km1 d1) (en_handle_initial km2 d2) s.
  Proof.
    intros HK (A1 & A2 & _) W. unfold en_handle_initial. rewrite A1, A2.
    eapply (sm_bind eq); [apply sm_lift; [exact W|apply rr_refl]|]. intros ni ? s0 W0 <-.
    eapply sm_bind; [apply sm_mod; [|reflexivity]; eapply (wf_same s0); auto; apply W0|]. intros _ _ s1 W1 _.
    eapply (sm_bind eq); [apply sm_lift; [exact W1|apply rr_refl]|]. intros np ? s2 W2 <-.
    eapply sm_bind; [apply sm_mod; [|reflexivity]; eapply (wf_same s2); auto; apply W2|]. intros _ _ s3 W3 _.
    eapply sm_bind; [apply sm_mod; [|reflexivity]; eapply (wf_same s3); auto; try apply W3; cbn; intros p [= <-]; apply W3|]. intros _ _ s4 W4 _.
    apply next_conv; assumption.
  Qed.
  Lemma py_nth_conv m i : is_matrix k m -> rr (fun v v' => v' = cv v /\ length v = k) (py_nth m i) (py_nth (cm m) i).
  Proof.
    intros Hm. unfold py_nth. unfold conv_rows. rewrite !map_length. destruct (py_pos (length m) i) as [j|]; [|reflexivity].
    change (rr (fun v v' => v' = cv v /\ length v = k) (at_ m j) (at_ (map cv m) j)).
    rewrite at_map. destruct (at_ m j) as [v|e] eqn:E; cbn [rmap rr]; [|reflexivity]. split; [reflexivity|].
    apply at_ok, nth_error_In in E. unfold is_matrix in Hm. rewrite Forall_forall in Hm. auto.
  Qed.
  Lemma request_conv km1 km2 c c' d1 d2 s : same_clusters us km1 km2 -> same_answer us d1 d2 -> well_formed k d1 -> wf s ->
    qrel (EReq 0 c) (EReq 0 c') -> sm qrel (en_handle_request km1 c d1) (en_handle_request km2 c' d2) s.
  Proof.
    intros HK (_ & _ & A3 & A4 & A5 & A6 & A7 & A8 & A9 & A10) HD W ((_ & C1 & C2 & C3 & C4 & C5 & C6 & C7) & (P1 & P2 & P3)).
    unfold en_handle_request. rewrite A3, A4, A5, A6, A7, A8, A9, C3, C4, C5.
    eapply (sm_bind eq); [apply sm_lift; [exact W|apply rr_refl]|]. intros sb ? s0 W0 <-. destruct sb; cbn [negb].
    - (* a step back *)
      assert (KM : forall o : option (list (list XR)), (forall m, o = Some m -> is_matrix k m) -> rr (fun m m' => m' = cm m /\ is_matrix k m) (key o) (key (option_map cm o))).
      { intros [m|] Ho; cbn; [split; auto|reflexivity]. }
      eapply sm_bind; [apply sm_lift; [exact W0|apply KM; intros m Hm; apply HD; auto]|]. intros zs ? s1 W1 (-> & Hzs).
      eapply sm_bind; [apply sm_lift; [exact W1|apply KM; intros m Hm; apply HD; auto]|]. intros lbs ? s2 W2 (-> & Hl).
      eapply sm_bind; [apply sm_lift; [exact W2|apply KM; intros m Hm; apply HD; auto]|]. intros ubs ? s3 W3 (-> & Hub).
      eapply (sm_bind eq); [apply sm_lift; [exact W3|apply rr_refl]|]. intros n ? s4 W4 <-.
      eapply sm_bind; [apply sm_mod; [|reflexivity]; eapply (wf_same s4); auto; apply W4|]. intros _ _ s5 W5 _.
      eapply (sm_bind (fun x y => same_if us y x)); [apply sm_lift; [exact W5|]|].
      { destruct (d_prev_dist d1), (d_prev_dist d2); cbn; try contradiction; auto. }
      intros ds ds' s6 W6 Hds. eapply sm_bind; [apply sm_get; exact W6|]. intros t1 t2 s7 W7 [-> ->].
      apply sm_lift; [exact W7|]. apply mk_conv; [cbn; auto|]. cbn. repeat split; auto.
    - eapply (sm_bind eq); [apply sm_lift; [exact W0|apply rr_refl]|]. intros i ? s1 W1 <-.
      eapply sm_bind; [apply sm_lift; [exact W1|apply (py_nth_conv _ i P1)]|]. intros p ? s2 W2 (-> & Hp).
      eapply sm_bind; [apply sm_mod; [|reflexivity]; eapply (wf_same s2); auto; try apply W2; cbn; intros ? [= <-]; exact Hp|]. intros _ _ s3 W3 _.
      eapply sm_bind; [apply sm_get; exact W3|]. intros t1 t2 s4 W4 [-> ->]. cbn [es_left cs].
      eapply (sm_bind eq); [apply sm_lift; [exact W4|apply rr_refl]|]. intros n ? s5 W5 <-.
      destruct (n <=? 1)%Z.
      + eapply sm_bind; [apply sm_mod; [|reflexivity]; eapply (wf_same s5); auto; apply W5|]. intros _ _ s6 W6 _.
        eapply sm_bind; [apply sm_get; exact W6|]. intros t1 t2 s7 W7 [-> ->].
        apply sm_lift; [exact W7|]. apply stop_conv; assumption.
      + eapply sm_bind; [apply sm_lift; [exact W5|apply (py_nth_conv _ i P2)]|]. intros lb ? s6 W6 (-> & Hl).
        eapply sm_bind; [apply sm_mod; [|reflexivity]; eapply (wf_same s6); auto; apply W6|]. intros _ _ s7 W7 _.
        eapply sm_bind; [apply sm_lift; [exact W7|apply (py_nth_conv _ i P3)]|]. intros ub ? s8 W8 (-> & Hub).
        eapply sm_bind; [apply sm_mod; [|reflexivity]; eapply (wf_same s8); auto; apply W8|]. intros _ _ s9 W9 _.
        eapply sm_bind; [apply sm_get; exact W9|]. intros t1 t2 s10 W10 [-> ->]. cbn [es_front es_lb es_ub cs].
        rewrite (reach_conv us HU) by (apply W9).
        eapply (sm_bind eq); [apply sm_lift; [exact W10|apply rr_refl]|]. intros ri ? s11 W11 <-.
        eapply sm_bind; [apply sm_mod; [|reflexivity]; eapply (wf_same s11); auto; apply W11|]. intros _ _ s12 W12 _.
        eapply (sm_bind eq); [apply sm_lift; [exact W12|apply rr_refl]|]. intros ch ? s13 W13 <-.
        eapply (sm_bind (fun _ _ => True)); [|intros; apply next_conv; assumption].
        destruct ch; cbn [negb].
        * eapply (sm_bind eq); [apply sm_lift; [exact W13|apply rr_refl]|]. intros n' ? s14 W14 <-.
          apply sm_mod; [|reflexivity]. eapply (wf_same s14); auto; apply W14.
        * apply sm_mod; [|reflexivity]. eapply (wf_same s13); auto; apply W13.
  Qed.

  (** One call. *)
  Definition answers (o1 o2 : option (en_dict XR)) : Prop :=
    match o1, o2 with None, None => True | Some d1, Some d2 => same_answer us d1 d2 /\ well_formed k d1 | _, _ => False end.
  Lemma iterate_conv km1 km2 q1 q2 o1 o2 s : same_clusters us km1 km2 -> qrel q1 q2 -> answers o1 o2 -> wf s ->
    sm qrel (en_iterate km1 q1 o1) (en_iterate km2 q2 o2) s.
  Proof.
    intros HK HQ HA W. pose proof HQ as [C WQ].
    assert (R : sm qrel (sraise TypeErr) (sraise TypeErr) s) by (unfold sm, sraise; cbn; auto).
    destruct q1 as [i1 n1|m1 c1|z1 x1], q2 as [i2 n2|m2 c2|z2 x2]; try contradiction; cbn [en_iterate].
    - destruct o1, o2; try contradiction; [|exact R]. apply initial_conv; auto. apply HA.
    - destruct o1, o2; try contradiction; [|exact R]. apply request_conv; auto; try apply HA. split; [|exact WQ]. destruct C as [_ C]. split; auto.
    - unfold sm, sret. cbn. auto.
  Qed.

  (** Validation. *)
  Lemma validate_conv q1 q2 d1 d2 : corresponds us q1 q2 -> same_answer us d1 d2 -> en_validate q2 d2 = en_validate q1 d1.
  Proof.
    intros C (A1 & A2 & A3 & A4 & A5 & A6 & A7 & A8 & A9 & A10). destruct q1 as [i1 n1|m1 c1|z1 x1], q2 as [i2 n2|m2 c2|z2 x2]; try contradiction; cbn [en_validate]; try reflexivity.
    - unfold en_validate_init. rewrite A1, A2. reflexivity.
    - destruct C as (-> & _). unfold en_validate_req. rewrite A3, A4, A5, A6, A7, A8, A9.
      destruct (d_prev_solutions d1), (d_prev_lb d1), (d_prev_ub d1), (d_prev_dist d1), (d_prev_dist d2); try contradiction; reflexivity.
  Qed.

  (** Histories. *)
  Context (F : list (list XR)) (ideal nadir : list XR) (vars : option (list (list XR))).
  Context (HF : is_matrix k F) (HI : length ideal = k) (HN : length nadir = k) (HV : forall v, vars = Some v -> length v = length F).
  Lemma twins_inv : forall s1 s2 qs, en_twins us F ideal nadir vars s1 s2 qs -> s2 = cs s1 /\ wf s1 /\ Forall (fun p => qrel (fst p) (snd p)) qs.
  Proof.
    assert (STEP : forall s1 s2 qs q1 q2 o1 o2 km1 km2 s1' out1 s2' out2,
      s2 = cs s1 /\ wf s1 /\ Forall (fun p => qrel (fst p) (snd p)) qs -> In (q1, q2) qs -> same_clusters us km1 km2 -> answers o1 o2 ->
      en_iterate km1 q1 o1 s1 = (s1', out1) -> en_iterate km2 q2 o2 s2 = (s2', out2) ->
      s2' = cs s1' /\ wf s1' /\ Forall (fun p => qrel (fst p) (snd p)) (match out1, out2 with Ok q1', Ok q2' => (q1', q2') :: qs | _, _ => qs end)).
    { intros s1 s2 qs q1 q2 o1 o2 km1 km2 s1' out1 s2' out2 (-> & W & HQ) Hin HK HA E1 E2. rewrite Forall_forall in HQ. pose proof (HQ _ Hin) as Hq. cbn [fst snd] in Hq.
      pose proof (iterate_conv km1 km2 q1 q2 o1 o2 s1 HK Hq HA W) as (W' & E & R). rewrite E1, E2 in *. cbn [fst snd] in *. split; [exact E|]. split; [exact W'|].
      rewrite <- Forall_forall in HQ. destruct out1, out2; auto. }
    intros s1 s2 qs T. induction T.
    - split; [unfold cs, en_init, conv_rows; cbn [es_front es_ideal es_nadir es_vars es_ub es_lb es_idx es_pref es_npoints es_left option_map]; rewrite map_length; reflexivity|]. split.
      + constructor; cbn; auto. discriminate.
      + repeat constructor.
    - eapply STEP; eauto. exact I.
    - eapply STEP; try eassumption. split; assumption.
  Qed.
  Lemma twins_outcome s1 s2 qs q1 q2 o1 o2 km1 km2 : en_twins us F ideal nadir vars s1 s2 qs -> In (q1, q2) qs -> same_clusters us km1 km2 -> answers o1 o2 ->
    corresponding_outcome us (snd (en_iterate km1 q1 o1 s1)) (snd (en_iterate km2 q2 o2 s2)).
  Proof.
    intros T Hin HK HA. apply twins_inv in T. destruct T as (-> & W & HQ). rewrite Forall_forall in HQ. pose proof (HQ _ Hin) as Hq. cbn [fst snd] in Hq.
    pose proof (iterate_conv km1 km2 q1 q2 o1 o2 s1 HK Hq HA W) as (_ & _ & R). unfold corresponding_outcome.
    destruct (snd (en_iterate km1 q1 o1 s1)), (snd (en_iterate km2 q2 o2 (cs s1))); cbn [rr] in R; try contradiction; [apply R|exact R].
  Qed.
End U.
