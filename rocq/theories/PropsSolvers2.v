(** * Properties of the Pareto front representation of desdeo_mcdm/utilities/solvers.py (C60, C86-C90). *)
From Coq Require Import String.
From Coq Require Import ZArith List Bool Lia Reals Lra Floats Sorted ClassicalEpsilon.
From Verif Require Import Num NumXR NumF64 Py Np Spec NpFacts XRFacts MNavigator PNavigator6 MRpm MParetoNav MSolvers SSolvers PSolvers PSolvers2 PSolvers3 F64Sums PropsSolvers.
Import ListNotations.
Open Scope R_scope.

(** An ideal or nadir point that is given: not all of it is infinite. *)
Definition known {N : NumOps} (v : list N) : Prop := exists x, In x v /\ nisinf x = false.
Definition unknown {N : NumOps} (v : list N) : Prop := forall x, In x v -> nisinf x = true.
Lemma known_iff {N : NumOps} (v : list N) : known v <-> forallb nisinf v = false.
Proof.
  unfold known. induction v as [|x v IH]; cbn; split; intros H; try discriminate.
  - destruct H as (y & [] & _).
  - destruct H as (y & [<-|Hy] & Hf); [rewrite Hf; reflexivity|]. apply andb_false_iff. right. apply IH. eauto.
  - apply andb_false_iff in H. destruct H as [H|H]; [eauto|]. apply IH in H. destruct H as (y & Hy & Hf). eauto.
Qed.
Lemma unknown_iff {N : NumOps} (v : list N) : unknown v <-> forallb nisinf v = true.
Proof. unfold unknown. rewrite forallb_forall. tauto. Qed.

Lemma F2_mono {A B} (P Q : A -> B -> Prop) l m : (forall a b, P a b -> Q a b) -> Forall2 P l m -> Forall2 Q l m.
Proof. intros HP H. induction H; constructor; auto. Qed.

Section Front.
  Context {N : NumOps}.
  Lemma points_known (e : sv_env N) eval n bounds constr id nd : known id -> known nd -> sv_points e eval n bounds constr (Some id) (Some nd) = Ok (id, nd).
  Proof. intros H1 H2. apply known_iff in H1. apply known_iff in H2. unfold sv_points. cbn. rewrite H1. cbn. rewrite H2. reflexivity. Qed.
  Lemma front_known (e : sv_env N) eval n bounds st eps id nd constr method : known id -> known nd ->
    sv_front e eval n bounds st eps (Some id) (Some nd) constr method =
    (do zs <- sv_grid e id nd eps st;
     do acc <- sv_loop e eval bounds (length id) method id nd zs ([], []);
     Ok (not_nan_rows (snd acc), not_nan_rows (fst acc))).
  Proof. intros H1 H2. unfold sv_front. rewrite points_known by assumption. reflexivity. Qed.
  Lemma front_ok (e : sv_env N) eval n bounds st eps id nd constr method V O : known id -> known nd ->
    sv_front e eval n bounds st eps (Some id) (Some nd) constr method = Ok (V, O) ->
    exists zs O' V', sv_grid e id nd eps st = Ok zs /\ sv_loop e eval bounds (length id) method id nd zs ([], []) = Ok (O', V') /\
      V = not_nan_rows V' /\ O = not_nan_rows O'.
  Proof.
    intros H1 H2 H. rewrite front_known in H by assumption. apply rbind_ok in H. destruct H as (zs & Hz & H).
    apply rbind_ok in H. destruct H as ([O' V'] & Hl & H). injection H as <- <-. eauto 8.
  Qed.
End Front.

(** ** C60: the front *)
(** Reported solutions have one entry per variable and one outcome per objective,
    not all NaN. *)
Definition has_number {N : NumOps} (v : list N) : Prop := Exists (fun x => nisnan x = false) v.
Definition sane {N : NumOps} (e : sv_env N) (eval : list N -> list N) (nvar nobj : nat) : Prop :=
  forall j x, sv_minimize e j = Ok (x, true) -> length x = nvar /\ length (eval x) = nobj /\ has_number x /\ has_number (eval x).

(** The two arrays have the same number of rows, each row of outcomes is what the
    objectives are at that row of variables, and each row of variables is an answer
    of the solver, reported as a success, to a call for some reference point. *)
Theorem C60_aligned :
  forall (N : NumOps), OrdLaws N -> forall (e : sv_env N) eval n bounds st eps id nd constr method V O,
  known id -> known nd -> length bounds <> 1%nat -> sane e eval (length bounds) (length id) ->
  sv_front e eval n bounds st eps (Some id) (Some nd) constr method = Ok (V, O) ->
  Forall2 (fun x f => f = eval x /\ exists z, ref_answer e eval bounds method id nd z x true) V O.
Proof.
  intros N L e eval n bounds st eps id nd constr method V O K1 K2 Hb HS H.
  destruct (front_ok e eval n bounds st eps id nd constr method V O K1 K2 H) as (zs & O' & V' & Hz & Hl & -> & ->).
  eapply F2_mono; [|apply (loop_aligned e eval bounds (length id) method id nd L zs O' V' ); [|exact Hl]].
  - cbn. intros x f (E & z & _ & A). eauto.
  - intros z x _ (j & Hj & _). destruct (HS j x Hj) as (A & B & C & D). repeat split; auto.
    unfold sv_width. destruct (length bounds) as [|[|k]]; congruence.
Qed.
Print Assumptions C60_aligned.
(** Refuted with one decision variable: the array of variables gets two columns, both
    with the value of that variable. *)
Theorem C60_single_variable_refuted :
  forall (N : NumOps) (e : sv_env N) eval n b st eps id nd constr method V O,
  known id -> known nd -> (forall j x, sv_minimize e j = Ok (x, true) -> length x = 1%nat) ->
  sv_front e eval n [b] st eps (Some id) (Some nd) constr method = Ok (V, O) ->
  forall r, In r V -> exists x, r = [x; x].
Proof.
  intros N e eval n b st eps id nd constr method V O K1 K2 HS H r Hr.
  destruct (front_ok e eval n [b] st eps id nd constr method V O K1 K2 H) as (zs & O' & V' & Hz & Hl & -> & ->).
  apply (not_nan_In eval id) in Hr. destruct Hr as (Hr & _).
  apply (loop_single e eval [b] (length id) method id nd zs O' V' eq_refl); auto. intros z x _ (j & Hj & _). eauto.
Qed.
Print Assumptions C60_single_variable_refuted.
(** What the check for dominance does: a row is not worse in every objective than all
    the rows above it. *)
Theorem C60_filter :
  forall (N : NumOps), OrdLaws N -> forall (e : sv_env N) eval n bounds st eps id nd constr method V O,
  known id -> known nd -> (forall j x, sv_minimize e j = Ok (x, true) -> length (eval x) = length id /\ has_number (eval x)) ->
  sv_front e eval n bounds st eps (Some id) (Some nd) constr method = Ok (V, O) ->
  forall k f, nth_error O (S k) = Some f -> exists m g, (m <= k)%nat /\ nth_error O m = Some g /\ ~ above f g.
Proof.
  intros N L e eval n bounds st eps id nd constr method V O K1 K2 HS H.
  destruct (front_ok e eval n bounds st eps id nd constr method V O K1 K2 H) as (zs & O' & V' & Hz & Hl & -> & ->).
  apply (loop_filter e eval bounds (length id) method id nd L zs O' V'); [|exact Hl]. intros z x _ (j & Hj & _). exact (HS j x Hj).
Qed.
Print Assumptions C60_filter.

(** Numbers that are real. *)
Lemma known_xr (v : list R) : v <> [] -> known (xv v : list XR).
Proof.
  destruct v as [|r v]; [congruence|]. intros _. exists (Fin r : XR). split; [left; reflexivity|].
  unfold nisinf. rewrite xisnan_fin. change (@nsub XR (Fin r) (Fin r)) with (Fin (r - r) : XR). rewrite xisnan_fin. reflexivity.
Qed.
Lemma pm_asf_fin nd id f q : nd <> [] -> rvle id nd -> length q = length nd -> length f = length nd ->
  exists a, pm_asf (N:=XR) (xv nd) (xv id) (xv f) (xv q) = (Fin a : XR).
Proof.
  intros Hn H Hq Hf. destruct (rterms nd id f q) as [|x l] eqn:E.
  - pose proof (rterms_len nd id f q (rvle_len _ _ H) Hf Hq) as HL. rewrite E in HL. destruct nd; [congruence|discriminate].
  - eexists. apply pm_asf_xr; eauto.
Qed.

(** The point method ASF with its default parameters (rho = 1e-6, utopian point the
    ideal minus 1e-6). *)
Definition uses_asf {N : NumOps} (e : sv_env N) : Prop := forall nd id f q, sv_asf e nd id f q = Ok (pm_asf nd id f q).

(** With exact numbers and a solver that reports success only for minimisers, every
    row is Pareto optimal, hence no row dominates another.  (Optimal within the
    bounds: see C86 for the constraints.) *)
Theorem C60_pareto_optimal :
  forall (e : sv_env XR) eval n bounds st ss eps id nd constr method V O,
  honest e -> exact_ceil e -> uses_asf e -> id <> [] -> rvle id nd -> 0 < eps -> step_is (length id) st ss -> Forall (fun s => 0 < s) ss ->
  (forall x, within bounds x -> exists f, eval x = xv f /\ length f = length id) ->
  sv_front e eval n bounds st (Fin eps : XR) (Some (xv id)) (Some (xv nd)) constr method = Ok (V, O) ->
  (forall f, In f O -> exists x, pareto bounds None eval x /\ f = eval x) /\ mutually_nondominated O.
Proof.
  intros e eval n bounds st ss eps id nd constr method V O HH HC HA Hne Hle He Hst Hs HE H.
  assert (Ln : length id = length nd) by (apply rvle_len; exact Hle).
  assert (Hnd : nd <> []) by (intros ->; destruct id; [congruence|discriminate]).
  destruct (front_ok e eval n bounds st _ _ _ constr method V O (known_xr id Hne) (known_xr nd Hnd) H) as (zs & O' & V' & Hz & Hl & -> & ->).
  destruct (grid_xr e id nd eps st ss HC He Hne Ln Hst Hs) as (Z & HZ & _ & HZI).
  assert (Ez : zs = xm Z) by congruence. subst zs.
  assert (HM : forall z x, In z Z -> ref_answer e eval bounds method (xv id) (xv nd) (xv z) x true -> pareto bounds None eval x).
  { intros z x Hin ([jf jb jc jm jg] & Hj & H1 & H2 & H3 & _). cbn in H1, H2, H3. subst jf jb jc.
    destruct (HH _ _ Hj) as (HF & v & Hv & Hmin). cbn [sj_fun sj_bounds sj_constr] in *. split; [exact HF|].
    intros y Hy (D1 & D2). destruct (Hmin y Hy) as (w & Hw & Hvw).
    destruct (HE x (proj1 HF)) as (f & Ef & Lf). destruct (HE y (proj1 Hy)) as (g & Eg & Lg).
    rewrite Ef, Eg in *. apply xvle_iff in D1.
    assert (Lz : length z = length nd). { apply HZI in Hin. rewrite (on_grid_len _ _ _ _ _ Hin), zipw_length. lia. }
    destruct (pm_asf_strict nd id g f z) as (a & b & Ea & Eb & Hab); auto; try lia.
    { intros ->. apply D2. apply xvle_iff. apply rvle_refl. }
    rewrite HA in Hv, Hw. rewrite Ea in Hw. rewrite Eb in Hv. injection Hv as <-. injection Hw as <-. apply xleb_fin in Hvw. lra. }
  assert (HP : forall f, In f (not_nan_rows O') -> exists x, pareto bounds None eval x /\ f = eval x).
  { intros f Hf. destruct (loop_origin e eval bounds (length (xv id : list XR)) method (xv id) (xv nd) XR_ord (xm Z) O' V') with (f := f) as (z & x & Hz1 & Hx & ->); auto.
    - intros z x Hz1 Ha. apply in_map_iff in Hz1. destruct Hz1 as (z' & <- & Hz1). destruct (HM z' x Hz1 Ha) as ((Hw & _) & _). destruct (HE x Hw) as (f' & -> & L'). rewrite !xv_length. exact L'.
    - apply in_map_iff in Hz1. destruct Hz1 as (z' & <- & Hz1). exists x. split; [exact (HM z' x Hz1 Hx)|reflexivity]. }
  split; [exact HP|]. intros a b Ha Hb Hd. destruct (HP a Ha) as (x & (Hx & _) & ->). destruct (HP b Hb) as (y & (_ & Hy) & ->). exact (Hy x Hx Hd).
Qed.
Print Assumptions C60_pareto_optimal.

(** [math.ceil] of a double. *)
Definition f64_ceil (x : F64) : res Z :=
  match Prim2SF x with
  | S754_zero _ => Ok 0%Z
  | S754_finite s m e =>
      let v := if s then Zneg m else Zpos m in
      Ok (if (0 <=? e)%Z then v * 2 ^ e else - ((- v) / 2 ^ (- e)))%Z
  | _ => Raise ValueErr
  end.
(** A solver that is not exact but reports success: its answers are (0,5), (5,0) and
    (1,6) for the reference points (0,0), (0,3) and (0,6); the objectives are the two
    decision variables. *)
Definition d_o : list F64 := [0; 0]%float.
Definition d_n : list F64 := [5; 6]%float.
Definition d_s : list F64 := [10; 3]%float.
Definition d_b : list (F64 * F64) := [((0%float : F64), (10%float : F64)); ((0%float : F64), (10%float : F64))].
Definition d_05 : list F64 := [0; 5]%float.
Definition d_50 : list F64 := [5; 0]%float.
Definition d_16 : list F64 := [1; 6]%float.
Definition d_eps : F64 := 0x1.0c6f7a0b5ed8dp-20%float. (* 1e-6 *)
Definition d_t1 : F64 := (-0x1.0c6f7a0b5ed8dp-22)%float. (* -0.25e-6 *)
Definition d_t2 : F64 := (-0x1.92a737110e454p-21)%float. (* -0.75e-6 *)
Definition d_min (j : sv_job F64) : res (list F64 * bool) :=
  do v <- sj_fun j d_o;
  Ok (if nltb d_t1 v then d_05 else if nltb d_t2 v then d_50 else d_16, true).
Definition d_env : sv_env F64 := MkSE d_min (fun nd id f q => Ok (pm_asf nd id f q)) f64_ceil.
Definition d_front : list (list F64) := [d_05; d_50; d_16].
(** Refuted: "guaranteed to contain only non-dominated solutions".  A row that is
    worse in every objective than another row is returned (doubles). *)
Theorem C60_dominated_refuted :
  uses_asf d_env /\ sane d_env (fun x => x) 2 2 /\ known d_o /\ known d_n /\
  sv_front d_env (fun x => x) 2 d_b (StArr d_s) d_eps (Some d_o) (Some d_n) None "scipy_de" = Ok (d_front, d_front) /\
  In d_16 d_front /\ In d_05 d_front /\ above d_16 d_05 /\ ~ mutually_nondominated d_front.
Proof.
  split; [intros nd id f q; reflexivity|]. split; [|split; [|split; [|split; [|split; [|split; [|split]]]]]].
  - intros j x H. cbn in H. unfold d_min in H. apply rbind_ok in H. destruct H as (v & _ & H). injection H as <-.
    repeat match goal with |- context [if ?b then _ else _] => destruct b end; (split; [reflexivity|split; [reflexivity|split; left; vm_compute; reflexivity]]).
  - exists (0%float : F64). split; [left; reflexivity|]. vm_compute. reflexivity.
  - exists (5%float : F64). split; [left; reflexivity|]. vm_compute. reflexivity.
  - vm_cast_no_check (@eq_refl (res (list (list F64) * list (list F64))) (Ok (d_front, d_front))).
  - right; right; left; reflexivity.
  - left; reflexivity.
  - repeat constructor; vm_compute; reflexivity.
  - intros H. apply (H d_05 d_16); [left; reflexivity|right; right; left; reflexivity|].
    split; [repeat constructor; vm_compute; reflexivity|]. intros V. inversion V as [|? ? ? ? H1 _]; subst. vm_compute in H1. discriminate.
Qed.
Print Assumptions C60_dominated_refuted.

(** ** C88: the reference points *)
(** All answers that are kept, in the order of the reference points. *)
Fixpoint somes {A} (l : list (option A)) : list A := match l with [] => [] | Some a :: r => a :: somes r | None :: r => somes r end.
Lemma loop_rows {N : NumOps} (L : OrdLaws N) (e : sv_env N) eval bounds d method id nd zs :
  (forall z x, In z zs -> ref_answer e eval bounds method id nd z x true -> length (eval x) = d /\ has_number (eval x)) ->
  forall O V O' V', sv_loop e eval bounds d method id nd zs (O, V) = Ok (O', V') ->
  exists rows, Forall2 (fun z r => match r with Some x => ref_answer e eval bounds method id nd z x true | None => True end) zs rows /\
    not_nan_rows O' = not_nan_rows O ++ map eval (somes rows).
Proof.
  induction zs as [|z zs IH]; intros HS O V O' V' H; cbn [sv_loop] in H.
  - injection H as <- <-. exists []. split; [constructor|]. cbn. rewrite app_nil_r. reflexivity.
  - apply rbind_ok in H. destruct H as ([O1 V1] & H1 & H2).
    destruct (IH (fun z x Hz => HS z x (or_intror Hz)) O1 V1 O' V' H2) as (rows & HR & HE).
    apply pass_ok in H1.
    assert (HN : not_nan_rows (O ++ [repeat nnan d]) = not_nan_rows O).
    { unfold not_nan_rows. rewrite filter_app. cbn. rewrite (all_nan_repeat L). cbn. apply app_nil_r. }
    inversion H1 as [y Hy E|y Hy Hne Hab E|y fr xr Hy Hor Hbf Hbx E]; subst.
    + exists (None :: rows). split; [constructor; auto|]. rewrite HE, HN. reflexivity.
    + exists (None :: rows). split; [constructor; auto|]. rewrite HE, HN. reflexivity.
    + exists (Some y :: rows). split; [constructor; auto|]. destruct (HS z y (or_introl eq_refl) Hy) as (Hl & Hn).
      rewrite (bc_row_same _ _ Hl) in Hbf. injection Hbf as <-. rewrite HE. unfold not_nan_rows. rewrite filter_app. cbn.
      apply some_not_all in Hn. rewrite Hn. cbn. rewrite <- app_assoc. reflexivity.
Qed.
Lemma loop_ext {N : NumOps} (e e' : sv_env N) eval bounds d method id nd zs :
  (forall z, In z zs -> sv_minimize e (MkJob (fun x => sv_asf e nd id (eval x) z) bounds None method None) = sv_minimize e' (MkJob (fun x => sv_asf e' nd id (eval x) z) bounds None method None)) ->
  forall acc, sv_loop e eval bounds d method id nd zs acc = sv_loop e' eval bounds d method id nd zs acc.
Proof.
  induction zs as [|z zs IH]; intros H acc; [reflexivity|]. cbn [sv_loop].
  assert (E : sv_pass e eval bounds d method id nd z acc = sv_pass e' eval bounds d method id nd z acc).
  { unfold sv_pass. rewrite (H z (or_introl eq_refl)). reflexivity. }
  rewrite E. destruct (sv_pass e' eval bounds d method id nd z acc) as [a|er]; [|reflexivity]. cbn [rbind]. apply IH. intros z' Hz. apply H. right. exact Hz.
Qed.

(** The reference points are those [lower corner + i * step], component by component,
    that lie below the upper corner plus eps.  They are used in lexicographic order,
    each of them once: the outcomes returned are those of a subsequence of the
    answers, and no other point matters. *)
Theorem C88_reference_points :
  forall (e : sv_env XR) eval n bounds st ss eps id nd constr method V O,
  exact_ceil e -> id <> [] -> length id = length nd -> 0 < eps -> step_is (length id) st ss -> Forall (fun s => 0 < s) ss ->
  (forall j x, sv_minimize e j = Ok (x, true) -> length (eval x) = length id /\ has_number (eval x)) ->
  sv_front e eval n bounds st (Fin eps : XR) (Some (xv id)) (Some (xv nd)) constr method = Ok (V, O) ->
  exists Z rows, StronglySorted lexlt Z /\ (forall z, In z Z <-> on_grid eps (zipw Rmin id nd) (zipw Rmax id nd) ss z) /\
    Forall (fun z => exists x ok, ref_answer e eval bounds method (xv id) (xv nd) (xv z) x ok) Z /\
    Forall2 (fun z r => match r with Some x => ref_answer e eval bounds method (xv id) (xv nd) (xv z) x true | None => True end) Z rows /\
    O = map eval (somes rows).
Proof.
  intros e eval n bounds st ss eps id nd constr method V O HC Hne Ln He Hst Hs HE H.
  assert (Hnd : nd <> []) by (intros ->; destruct id; [congruence|discriminate]).
  destruct (front_ok e eval n bounds st _ _ _ constr method V O (known_xr id Hne) (known_xr nd Hnd) H) as (zs & O' & V' & Hz & Hl & -> & ->).
  destruct (grid_xr e id nd eps st ss HC He Hne Ln Hst Hs) as (Z & HZ & HZS & HZI).
  assert (Ez : zs = xm Z) by congruence. subst zs. rewrite xv_length in Hl.
  destruct (loop_rows XR_ord e eval bounds (length id) method (xv id) (xv nd) (xm Z)) with (O := @nil (list XR)) (V := @nil (list XR)) (O' := O') (V' := V') as (rows & HR & HO); auto.
  { intros z x _ (j & Hj & _). exact (HE j x Hj). }
  exists Z, rows. split; [exact HZS|]. split; [exact HZI|]. split; [|split].
  - apply Forall_forall. intros z Hin. eapply loop_called; [exact Hl|]. apply in_map. exact Hin.
  - clear - HR. remember (xm Z) as zs eqn:E. revert Z E. induction HR as [|z r zs rows Hr HR IH]; intros [|z' Z] E; try discriminate; constructor.
    + cbn in E. injection E as -> E. exact Hr.
    + apply IH. cbn in E. injection E as _ E. exact E.
  - exact HO.
Qed.
Print Assumptions C88_reference_points.
(** What the solver would answer for other points makes no difference. *)
Theorem C88_no_other_points :
  forall (e e' : sv_env XR) eval n bounds st ss eps id nd constr method,
  exact_ceil e -> sv_ceil e' = sv_ceil e -> id <> [] -> length id = length nd -> 0 < eps -> step_is (length id) st ss -> Forall (fun s => 0 < s) ss ->
  (forall z, on_grid eps (zipw Rmin id nd) (zipw Rmax id nd) ss z ->
     sv_minimize e (MkJob (fun x => sv_asf e (xv nd) (xv id) (eval x) (xv z)) bounds None method None) =
     sv_minimize e' (MkJob (fun x => sv_asf e' (xv nd) (xv id) (eval x) (xv z)) bounds None method None)) ->
  sv_front e eval n bounds st (Fin eps : XR) (Some (xv id)) (Some (xv nd)) constr method =
  sv_front e' eval n bounds st (Fin eps : XR) (Some (xv id)) (Some (xv nd)) constr method.
Proof.
  intros e e' eval n bounds st ss eps id nd constr method HC Hce Hne Ln He Hst Hs HE.
  assert (Hnd : nd <> []) by (intros ->; destruct id; [congruence|discriminate]).
  assert (HC' : exact_ceil e') by (unfold exact_ceil in *; rewrite Hce; exact HC).
  rewrite !front_known by (apply known_xr; assumption).
  assert (EG : sv_grid e' (xv id) (xv nd) (Fin eps : XR) st = sv_grid e (xv id) (xv nd) (Fin eps : XR) st).
  { unfold sv_grid. destruct (negb _); [reflexivity|]. destruct (sv_steps (length (xv id)) st) as [s|x]; [|reflexivity]. cbn [rbind].
    assert (EA : forall lo up ss', sv_axes e' lo up (Fin eps : XR) ss' = sv_axes e lo up (Fin eps : XR) ss').
    { induction lo as [|l lo IH]; intros [|u up] [|s1 ss']; try reflexivity. cbn [sv_axes]. unfold sv_axis at 1. rewrite Hce. fold (sv_axis e l u (Fin eps : XR) s1). rewrite IH. reflexivity. }
    rewrite EA. reflexivity. }
  rewrite EG. destruct (grid_xr e id nd eps st ss HC He Hne Ln Hst Hs) as (Z & HZ & HZS & HZI). rewrite HZ. cbn [rbind].
  rewrite (loop_ext e e'); [reflexivity|]. intros z Hz. apply in_map_iff in Hz. destruct Hz as (z' & <- & Hz). apply HE. apply HZI. exact Hz.
Qed.
Print Assumptions C88_no_other_points.

(** The grid covers the box: below every point of the box there is a reference point
    less than one step away. *)
Theorem C88_covers :
  forall eps lo up ss p, 0 < eps -> length ss = length lo -> Forall (fun s => 0 < s) ss -> rvle lo p -> rvle p up ->
  exists z, on_grid eps lo up ss z /\ rvle z p /\ Forall2 Rlt p (zipw Rplus z ss).
Proof.
  intros eps lo up ss p He Hl Hs H1 H2. revert up ss Hl Hs H2. induction H1 as [|l q lo p Hlq H1 IH]; intros up ss Hl Hs H2.
  - inversion H2; subst. destruct ss; [|discriminate]. exists []. repeat split; constructor.
  - destruct ss as [|s ss]; [discriminate|]. inversion Hs as [|? ? S1 S2]; subst. inversion H2 as [|? u ? ups Hu H2']; subst.
    destruct (IH ups ss) as (z & G1 & G2 & G3); [cbn [Datatypes.length] in Hl; lia|exact S2|exact H2'|].
    destruct (base_Int_part ((q - l) / s)) as [B1 B2]. remember (Int_part ((q - l) / s)) as k eqn:Hk. clear Hk.
    assert (Q0 : 0 <= (q - l) / s). { unfold Rdiv. apply Rmult_le_pos; [lra|]. apply Rlt_le. apply Rinv_0_lt_compat. exact S1. }
    assert (K0 : (0 <= k)%Z). { assert (-1 < k)%Z by (apply lt_IZR; lra). lia. }
    assert (Ek : INR (Z.to_nat k) = IZR k) by (rewrite INR_IZR_INZ, Z2Nat.id by exact K0; reflexivity).
    assert (Qe : (q - l) / s * s = q - l) by (field; lra).
    exists ((l + INR (Z.to_nat k) * s) :: z). rewrite Ek.
    assert (M1 : IZR k * s <= q - l). { rewrite <- Qe. apply Rmult_le_compat_r; lra. }
    assert (M2 : q - l < (IZR k + 1) * s). { rewrite <- Qe. apply Rmult_lt_compat_r; lra. }
    split; [|split].
    + apply og_cons with (i := Z.to_nat k); [rewrite Ek; reflexivity|lra|exact G1].
    + constructor; [lra|exact G2].
    + cbn [zipw]. constructor; [lra|exact G3].
Qed.
Print Assumptions C88_covers.
(** Both corners: the lower one always, the upper one if it is a whole number of steps away. *)
Theorem C88_corners :
  forall eps lo up ss, 0 < eps -> length ss = length lo -> rvle lo up ->
  on_grid eps lo up ss lo /\
  ((forall i l u s, nth_error lo i = Some l -> nth_error up i = Some u -> nth_error ss i = Some s -> exists k, u = l + INR k * s) -> on_grid eps lo up ss up).
Proof.
  intros eps lo up ss He Hl H. revert ss Hl. induction H as [|l u lo up Hlu H IH]; intros [|s ss] Hl; try discriminate.
  - split; [constructor|intros _; constructor].
  - destruct (IH ss) as [I1 I2]. { cbn in Hl. lia. } split.
    + apply og_cons with (i := 0%nat); [cbn; lra|lra|exact I1].
    + intros HK. destruct (HK 0%nat l u s eq_refl eq_refl eq_refl) as (k & Ek). apply og_cons with (i := k); [exact Ek|lra|].
      apply I2. intros i l' u' s' A B C. exact (HK (S i) l' u' s' A B C).
Qed.
Print Assumptions C88_corners.

(** ** C87: nothing is lost *)
Lemma lexlt_irrefl a : ~ lexlt a a.
Proof. induction a as [|x a IH]; intros H; inversion H; subst; [lra|auto]. Qed.
Lemma lexlt_trans a b c : lexlt a b -> lexlt b c -> lexlt a c.
Proof.
  intros H. revert c. induction H as [x y a b Hxy|x a b H IH]; intros c Hc; inversion Hc; subst.
  - apply lex_here. lra. - apply lex_here. exact Hxy. - apply lex_here. assumption. - apply lex_next. apply IH. assumption.
Qed.
Lemma on_grid_least eps lo up ss z : on_grid eps lo up ss z -> Forall (fun s => 0 < s) ss -> z = lo \/ lexlt lo z.
Proof.
  induction 1 as [|l u s z los ups ss zs i Ez Hz H IH]; intros Hs; [left; reflexivity|]. inversion Hs as [|? ? S1 S2]; subst.
  destruct i as [|i].
  - cbn [INR]. rewrite Rmult_0_l, Rplus_0_r. destruct (IH S2) as [->|HL]; [left; reflexivity|right; apply lex_next; exact HL].
  - right. apply lex_here. assert (0 < INR (S i) * s); [|lra]. apply Rmult_lt_0_compat; [apply lt_0_INR; lia|exact S1].
Qed.
Lemma grid_head eps lo up ss Z : 0 < eps -> length ss = length lo -> rvle lo up -> Forall (fun s => 0 < s) ss -> StronglySorted lexlt Z ->
  (forall z, In z Z <-> on_grid eps lo up ss z) -> exists Z', Z = lo :: Z'.
Proof.
  intros He Hl Hle Hs HS HI. assert (Hin : In lo Z) by (apply HI; apply C88_corners; auto).
  destruct Z as [|z Z]; [destruct Hin|]. exists Z. f_equal. destruct Hin as [->|Hin]; [reflexivity|]. exfalso.
  inversion HS as [|? ? _ HF]; subst. rewrite Forall_forall in HF. specialize (HF lo Hin).
  destruct (on_grid_least eps lo up ss z) as [->|HL]; auto. { apply HI. left. reflexivity. }
  - exact (lexlt_irrefl _ HF). - exact (lexlt_irrefl _ (lexlt_trans _ _ _ HF HL)).
Qed.
Lemma zipmin_le a b : rvle a b -> zipw Rmin a b = a.
Proof. induction 1; [reflexivity|]. cbn. rewrite IHForall2, Rmin_left by assumption. reflexivity. Qed.
Lemma zipmax_le a b : rvle a b -> zipw Rmax a b = b.
Proof. induction 1; [reflexivity|]. cbn. rewrite IHForall2, Rmax_right by assumption. reflexivity. Qed.

(** Partial: if the optimisation for the first reference point (the ideal) succeeded,
    the outcome of every successful optimisation is returned, or it is worse in every
    objective than an outcome that is returned.  Missing: the case that it failed. *)
Theorem C87_kept_partial :
  forall (e : sv_env XR) eval n bounds st ss eps id nd constr method V O x0,
  exact_ceil e -> id <> [] -> rvle id nd -> 0 < eps -> step_is (length id) st ss -> Forall (fun s => 0 < s) ss ->
  (forall j x, sv_minimize e j = Ok (x, true) -> length (eval x) = length id /\ has_number (eval x)) ->
  sv_front e eval n bounds st (Fin eps : XR) (Some (xv id)) (Some (xv nd)) constr method = Ok (V, O) ->
  ref_answer e eval bounds method (xv id) (xv nd) (xv id) x0 true ->
  In (eval x0) O /\
  forall z x, on_grid eps id nd ss z -> ref_answer e eval bounds method (xv id) (xv nd) (xv z) x true ->
    In (eval x) O \/ exists g, In g O /\ above (eval x) g.
Proof.
  intros e eval n bounds st ss eps id nd constr method V O x0 HC Hne Hle He Hst Hs HE H H0.
  assert (Ln : length id = length nd) by (apply rvle_len; exact Hle).
  assert (Hnd : nd <> []) by (intros ->; destruct id; [congruence|discriminate]).
  destruct (front_ok e eval n bounds st _ _ _ constr method V O (known_xr id Hne) (known_xr nd Hnd) H) as (zs & O' & V' & Hz & Hl & -> & ->).
  destruct (grid_xr e id nd eps st ss HC He Hne Ln Hst Hs) as (Z & HZ & HZS & HZI). rewrite (zipmin_le _ _ Hle), (zipmax_le _ _ Hle) in HZI.
  assert (Ez : zs = xm Z) by congruence. subst zs. rewrite xv_length in Hl.
  destruct (grid_head eps id nd ss Z He (proj1 Hst) Hle Hs HZS HZI) as (Z' & EZ).
  assert (HS : forall z x, In z (xm Z) -> ref_answer e eval bounds method (xv id) (xv nd) z x true -> length (eval x) = length id /\ has_number (eval x)).
  { intros z x _ (j & Hj & _). exact (HE j x Hj). }
  assert (HK : forall z x, In z (xm Z) -> ref_answer e eval bounds method (xv id) (xv nd) z x true ->
     In (eval x) (not_nan_rows O') \/ (not_nan_rows O' <> [] /\ exists g, In g (not_nan_rows O') /\ above (eval x) g)).
  { apply (loop_kept e eval bounds (length id) method (xv id) (xv nd) XR_ord (xm Z) [] [] O' V'); auto.
    - constructor.
    - intros _ z x ok Hhd Ha. rewrite EZ in Hhd. cbn in Hhd. injection Hhd as <-.
      destruct (answer_fun e eval bounds method (xv id) (xv nd) (xv id) _ _ _ _ H0 Ha) as (_ & ->). reflexivity. }
  split.
  - (* the first answer *)
    rewrite EZ in Hl. cbn [xm map sv_loop] in Hl. apply rbind_ok in Hl. destruct Hl as ([O1 V1] & Hp & Hl). apply pass_ok in Hp.
    destruct (HS (xv id) x0) as (L0 & N0); [rewrite EZ; left; reflexivity|exact H0|].
    assert (H1 : O1 = [eval x0]).
    { inversion Hp as [y Hy E|y Hy Hn Hab E|y fr xr Hy Hor Hbf Hbx E]; subst.
      - destruct (answer_fun e eval bounds method (xv id) (xv nd) (xv id) _ _ _ _ H0 Hy) as (_ & EE). discriminate.
      - congruence.
      - destruct (answer_fun e eval bounds method (xv id) (xv nd) (xv id) _ _ _ _ H0 Hy) as (-> & _). rewrite (bc_row_same _ _ L0) in Hbf. injection Hbf as <-. reflexivity. }
    subst O1. destruct (loop_grows e eval bounds (length id) method (xv id) (xv nd) _ _ _ _ _ Hl) as (o & v & -> & _).
    apply (not_nan_In eval (xv id)). split; [left; reflexivity|]. apply some_not_all. exact N0.
  - intros z x Hg Ha. destruct (HK (xv z) x) as [A|(_ & g & A & B)]; auto. { apply in_map. apply HZI. exact Hg. } right. eauto.
Qed.
Print Assumptions C87_kept_partial.
(** Refuted otherwise: if the optimisation for the ideal fails, the result is empty,
    whatever the other optimisations find. *)
Theorem C87_first_failure_refuted :
  forall (e : sv_env XR) eval n bounds st ss eps id nd constr method V O x0,
  exact_ceil e -> id <> [] -> rvle id nd -> 0 < eps -> step_is (length id) st ss -> Forall (fun s => 0 < s) ss ->
  (forall j x, sv_minimize e j = Ok (x, true) -> length (eval x) = length id) ->
  sv_front e eval n bounds st (Fin eps : XR) (Some (xv id)) (Some (xv nd)) constr method = Ok (V, O) ->
  ref_answer e eval bounds method (xv id) (xv nd) (xv id) x0 false -> V = [] /\ O = [].
Proof.
  intros e eval n bounds st ss eps id nd constr method V O x0 HC Hne Hle He Hst Hs HE H H0.
  assert (Ln : length id = length nd) by (apply rvle_len; exact Hle).
  assert (Hnd : nd <> []) by (intros ->; destruct id; [congruence|discriminate]).
  destruct (front_ok e eval n bounds st _ _ _ constr method V O (known_xr id Hne) (known_xr nd Hnd) H) as (zs & O' & V' & Hz & Hl & -> & ->).
  destruct (grid_xr e id nd eps st ss HC He Hne Ln Hst Hs) as (Z & HZ & HZS & HZI). rewrite (zipmin_le _ _ Hle), (zipmax_le _ _ Hle) in HZI.
  assert (Ez : zs = xm Z) by congruence. subst zs. rewrite xv_length in Hl.
  destruct (grid_head eps id nd ss Z He (proj1 Hst) Hle Hs HZS HZI) as (Z' & EZ). rewrite EZ in Hl.
  cbn [xm map sv_loop] in Hl. apply rbind_ok in Hl. destruct Hl as ([O1 V1] & Hp & Hl). apply pass_ok in Hp.
  inversion Hp as [y Hy E|y Hy Hn Hab E|y fr xr Hy Hor Hbf Hbx E]; subst.
  2:{ congruence. }
  2:{ destruct (answer_fun e eval bounds method (xv id) (xv nd) (xv id) _ _ _ _ H0 Hy) as (_ & EE). discriminate. }
  cbn [app] in Hl.
  destruct (loop_all_nan e eval bounds (length id) method (xv id) (xv nd) XR_ord (map xv Z') [repeat nnan (length id)] [repeat nnan (sv_width bounds)] O' V') as (A & B); auto; try congruence.
  - unfold not_nan_rows. cbn. rewrite (all_nan_repeat XR_ord). reflexivity.
  - unfold not_nan_rows. cbn. rewrite (all_nan_repeat XR_ord). reflexivity.
  - intros z x _ (j & Hj & _). exact (HE j x Hj).
Qed.
Print Assumptions C87_first_failure_refuted.
