(** * C99: the solutions NIMBUS finds in a data set are weakly Pareto optimal. *)
From Coq Require Import ZArith List Bool Lia Reals Lra Floats.
From Verif Require Import Num NumXR NumF64 F64Facts Py Np Spec NpFacts XRFacts PAsf MNimbus SNimbus PNimbus PNimbus2 PNimbus3 PNimbus4 PNimbus6 PNimbus7 PNimbus8
  SNimbus3 PNimbus11 MNimbusAsf PNimbus12 PNimbus13.
Import ListNotations.

(** Any arithmetic, any achievement functions that prefer rows better in every
    objective, any history: the current solution, every archived one and
    everything shown so far is a row of the data, and no row is better in every objective.
    In particular the first solution of a classification, which is sought only among the rows that
    respect it, is weakly optimal among all rows. *)
Theorem C99_weakly_optimal :
  forall (N : NumOps) (L : OrdLaws N) (fin : N -> Prop), slack_monotone fin ->
  forall (av : @asf_val N) k data decs closest ideal nadir start x0 s0 s qs,
  nan_on_nan_rows av -> nb_wf fin (PDisc k data decs closest) ideal nadir ->
  (forall a ref, improves_on av data a ref) ->
  nb_init av (PDisc k data decs closest) ideal nadir start x0 = Ok s0 ->
  nb_reach av (PDisc k data decs closest) ideal nadir s0 s qs ->
  weakly_optimal data (bs_obj s) /\ Forall (weakly_optimal data) (bs_aobjs s) /\
  (forall q f, In q qs -> shows q f -> weakly_optimal data f).
Proof.
  intros N L fin HS av k data decs closest ideal nadir start x0 s0 s qs HN HW HI H0 HR.
  assert (HR' : nb_reach_if (fun _ _ _ => True) av (PDisc k data decs closest) ideal nadir s0 s qs).
  { clear - HR. induction HR; [constructor|]. econstructor; eauto. }
  destruct (winv_reach L fin HS av k data decs closest ideal nadir HN HW (fun _ _ _ => True)) with (start := start) (x0 := x0) (s0 := s0) (s := s) (qs := qs) as (A & B & C); auto.
  split; [exact A|]. split; [exact B|]. intros q f Hq. rewrite Forall_forall in C. exact (C q Hq f).
Qed.
Print Assumptions C99_weakly_optimal.

(** The hypotheses are met with doubles: the session of PropsNimbus.v. *)
Example C99_hypotheses_met :
  slack_monotone (N:=F64) ffin /\ nan_on_nan_rows bav /\ nb_wf ffin bP bI bN /\
  (forall a ref, improves_on bav bO a ref) /\
  (exists f g : list F64, strictly_better f g /\ ~ strictly_better g f) /\
  (forall t, t <= 6 -> exists s0, nb_init bav bP bI bN None [] = Ok s0 /\ nb_reach bav bP bI bN s0 (b_state t) (b_reqs t)) /\
  map (fun t => length (bs_aobjs (b_state t))) (seq 0 7) = [0; 0; 2; 2; 2; 2; 2].
Proof.
  split; [exact F64_slack|]. split; [exact bav_nan|]. split; [exact bP_wf|].
  split. { intros a ref. apply bav_improves. repeat constructor; discriminate. }
  split. { exists [0; 0]%float, [1; 1]%float. split; [repeat constructor|]. intros H. inversion H as [|? ? ? ? E]. vm_compute in E. discriminate E. }
  split. { intros t Ht. destruct (b_reach t Ht) as (s0 & A & B & _). eauto. }
  vm_compute. reflexivity.
Qed.

(** With the documented achievement functions, in exact arithmetic: data with
    two or more objectives between ideal and nadir, [delta > 0], [rho >= 0], a
    finite starting point, and sessions whose classifications have one class per objective
    and demand less than the nadir of every objective that is not free (otherwise the
    documented GUESS function divides by zero). *)
Theorem C99_documented_functions :
  forall (delta rho : R) k (data : list (list R)) (decs : list (list XR)) closest (ideal nadir : list R) (start : option (list R)) x0 s0 s qs,
  (0 < delta)%R -> (0 <= rho)%R -> 2 <= k ->
  Forall (fun row => length row = k) data -> length decs = length data -> length ideal = k ->
  Forall (fun row => rvle ideal row /\ rvle row nadir) data ->
  let av := nb_asf_doc (Fin delta : XR) (Fin rho : XR) in
  let p := PDisc k (xm data) decs closest in
  nb_init av p (xv ideal) (xv nadir) (option_map xv start) x0 = Ok s0 ->
  nb_reach_if (below_nadir (N:=XR) k (xv ideal) (xv nadir)) av p (xv ideal) (xv nadir) s0 s qs ->
  weakly_optimal (N:=XR) (xm data) (bs_obj s) /\ Forall (weakly_optimal (N:=XR) (xm data)) (bs_aobjs s) /\
  (forall q f, In q qs -> shows (N:=XR) q f -> weakly_optimal (N:=XR) (xm data) f).
Proof.
  intros delta rho k data decs closest ideal nadir start x0 s0 s qs Hd Hr Hk Hm Hl Hi Hb av p H0 HR.
  assert (HI : rvle ideal nadir).
  { destruct data as [|row data].
    - exfalso. unfold nb_init, p in H0. destruct (negb _); [discriminate|]. apply rbind_ok in H0 as (i & _ & H0). apply rbind_ok in H0 as (x & _ & H0). apply rbind_ok in H0 as (f & Hf & _).
      destruct i; discriminate.
    - apply (box_ideal (row :: data) ideal nadir Hb row). left. reflexivity. }
  assert (Ln : length nadir = k) by (rewrite <- Hi; symmetry; apply rvle_len; auto).
  assert (HW : nb_wf (N:=XR) xfin p (xv ideal) (xv nadir)).
  { unfold nb_wf, p. cbn [p_nobj]. rewrite !xv_length. split; [lia|]. split; auto. split; auto. split; [apply xm_is_matrix; auto|]. split.
    - apply Forall_forall. intros r Hin. apply in_map_iff in Hin as (r' & <- & _). apply Forall_forall. intros x Hx. apply in_map_iff in Hx as (y & <- & _). exists y. reflexivity.
    - rewrite xm_length. auto. }
  assert (HP : forall ref, Fins ref -> improves_on av (xm data) (APoint (xv nadir) (xv ideal)) ref) by (intros ref HF; eapply point_improves; eauto).
  destruct (winv_reach XR_ord xfin XR_slack av k (xm data) decs closest (xv ideal) (xv nadir) (doc_nan _ _) HW (below_nadir (N:=XR) k (xv ideal) (xv nadir)))
    with (start := option_map xv start) (x0 := x0) (s0 := s0) (s := s) (qs := qs) as (A & B & C); auto.
  - intros ref Hin. apply HP. apply in_map_iff in Hin as (r & <- & _). exists r. reflexivity.
  - intros d f cl lv a ref. exact (asked_improves delta rho k data decs closest ideal nadir Hd Hr Hk Hm Hi Hb d f cl lv a ref).
  - apply HP. destruct start as [v|]; [exists v; reflexivity|]. cbn [option_map start_ref].
    exists (map (fun x => (x / 2)%R) (zipw Rplus ideal nadir)). rewrite <- (map_zipw (fun x => ndiv x (nofZ 2)) nadd). rewrite (zip_xr _ Rplus) by reflexivity. unfold xv. rewrite !map_map. apply map_ext. intros x.
    apply (xdiv_fin x 2). lra.
  - split; [exact A|]. split; [exact B|]. intros q f Hq. rewrite Forall_forall in C. exact (C q Hq f).
Qed.
Print Assumptions C99_documented_functions.

(** The hypotheses are met: three points, and an accepted classification that demands less than the nadir. *)
Definition w_data : list (list R) := [[0; 4]; [1; 1]; [4; 0]]%R.
Definition w_decs : list (list XR) := [[]; []; []].
Definition w_ideal : list R := [0; 0]%R.
Definition w_nadir : list R := [4; 4]%R.
Definition w_ans : nb_dict XR := MkBD (Some [CImproveUntil; CFree]) (Some (xv [1; 0]%R)) (Some (VInt 4)) None None None None.
Example C99_documented_hypotheses_met :
  let av := nb_asf_doc (Fin 1 : XR) (Fin 1 : XR) in
  let p := PDisc 2 (xm w_data) w_decs (fun _ => 0) in
  Forall (fun row => length row = 2) w_data /\ Forall (fun row => rvle w_ideal row /\ rvle row w_nadir) w_data /\
  (exists s0, nb_init av p (xv w_ideal) (xv w_nadir) (option_map xv (Some [2; 2]%R)) [] = Ok s0) /\
  (forall f, nb_validate p (xv w_ideal) (xv w_nadir) (QClass f) w_ans = Ok tt) /\
  (forall f, below_nadir (N:=XR) 2 (xv w_ideal) (xv w_nadir) f [CImproveUntil; CFree] (xv [1; 0]%R)).
Proof.
  cbv zeta. split; [repeat constructor|]. split. { repeat constructor; lra. }
  split; [|split].
  - assert (W : vsub (xv w_nadir : list XR) (utopian_of (Fin 1 : XR) (xv w_ideal)) = xv [5; 5]%R).
    { rewrite (uto_xr 1). unfold vsub. rewrite vsub_xr. cbn. repeat f_equal; lra. }
    assert (V : forall a b : R, exists v : R, nb_asf_doc (Fin 1 : XR) (Fin 1 : XR) (APoint (xv w_nadir) (xv w_ideal)) (xv [a; b]) (xv [2; 2]%R) = Ok (Fin v : XR)).
    { intros a b. unfold nb_asf_doc. rewrite W. rewrite bsub_xr by reflexivity. cbn [rbind]. rewrite !bcast2_eq by reflexivity.
      rewrite !zipdiv_xr by (repeat constructor; lra). cbn [rbind]. rewrite npmax_xr by discriminate. cbn [rbind].
      unfold vsum. change (@nofZ XR 0) with (Fin 0 : XR). rewrite vsum_xr. eexists. reflexivity. }
    unfold nb_init. cbn [option_map]. unfold nb_start_ok. rewrite !xv_length. cbn [length Nat.eqb orb w_ideal negb].
    destruct (V 0 4)%R as (v1 & E1). destruct (V 1 1)%R as (v2 & E2). destruct (V 4 0)%R as (v3 & E3).
    unfold disc_minimize. cbn [rbind w_data xm map rseq]. fold w_ideal. rewrite E1, E2, E3. cbn [rbind rmap].
    match goal with |- context [npnanargmin ?l] => assert (Ei : exists i, i < 3 /\ npnanargmin l = Ok i) end.
    { match goal with |- context [npnanargmin ?l] => destruct (npnanargmin l) as [i|e] eqn:Ei end.
      - exists i. split; auto. apply (npnanargmin_ok XR_ord) in Ei as (v & Hv & _). change 3 with (length [Fin v1 : XR; Fin v2 : XR; Fin v3 : XR]). apply nth_error_Some. congruence.
      - exfalso. assert (G : Forall (fun y : XR => nisnan y = true) [Fin v1 : XR; Fin v2 : XR; Fin v3 : XR]) by (apply (npnanargmin_raise XR_ord); eauto).
        inversion G as [|? ? G1]. rewrite xisnan_fin in G1. discriminate. }
    destruct Ei as (i & Hi & Ei). rewrite Ei. cbn [rbind]. destruct i as [|[|[|i]]]; [eexists; reflexivity..|lia].
  - intros f. apply validate_cls_iff. exists [CImproveUntil; CFree], (xv [1; 0]%R), (VInt 4). repeat (split; [reflexivity|]).
    split. { intros [H|[H|[]]]; discriminate. } split; [reflexivity|]. split; [discriminate|]. split; [|split; reflexivity].
    intros i Hi. destruct i as [|[|i]]; cbn in Hi; try (destruct Hi; discriminate).
    + exists (Fin 0 : XR), (Fin 1 : XR), (Fin 4 : XR). split; [reflexivity|]. split; [reflexivity|]. split; [reflexivity|]. split; apply xleb_fin; lra.
    + destruct i; destruct Hi; discriminate.
  - intros f. split; [reflexivity|]. intros i c x y Hc Hf Hx Hy. destruct i as [|[|i]]; cbn in Hc.
    + injection Hc as <-. cbn [implied_level] in Hx. rewrite xv_nth in Hx, Hy. injection Hx as <-. injection Hy as <-. apply xltb_fin. lra.
    + injection Hc as <-. congruence.
    + destruct i; discriminate.
Qed.

(** A classification with too few entries is accepted (C35) and then zero is used as the level
    of the missing objectives.  With the documented STOM function and doubles ([delta = rho = 1e-6]) the second solution shown
    is then worse in both objectives than another row of the data. *)
Definition t_data : list (list F64) := [[2; 2]; [0x1.000001p+1; 5]]%float.
Definition t_decs : list (list F64) := [[0]; [1]]%float.
Definition t_ideal : list F64 := [1; 1]%float.
Definition t_nadir : list F64 := [5; 5]%float.
Definition t_eps : F64 := 1e-6%float.
Definition t_P : nb_problem F64 := PDisc 2 t_data t_decs (fun _ => 0).
Definition t_av : @asf_val F64 := nb_asf_doc t_eps t_eps.
Definition t_ans : list (nb_dict F64) := [dcls [CImproveUntil] [1.5; 0]%float 2].
Definition t_good : list F64 := [2; 2]%float.
Definition t_bad : list F64 := [0x1.000001p+1; 5]%float.
Definition fl_eqb (a b : list F64) : bool := Nat.eqb (length a) (length b) && forallb (fun x => x) (zipw (@neqb F64) a b).
Definition t_check (o : option (nb_state F64 * nb_request F64 * list (nb_request F64))) : bool :=
  match o with Some (_, QSave [_; [x]] [_; f], _) => PrimFloat.eqb x 1 && PrimFloat.eqb (hd 0%float f) 0x1.000001p+1 && PrimFloat.eqb (last f 0%float) 5 | _ => false end.
Theorem C99_short_classification_refuted : exists s0 s qs sols objs f,
  nb_init t_av t_P t_ideal t_nadir None [] = Ok s0 /\ nb_reach t_av t_P t_ideal t_nadir s0 s qs /\
  In (QSave sols objs) qs /\ In f objs /\ In t_good t_data /\ strictly_better (N:=F64) t_good f.
Proof.
  assert (G : forall o, t_check o = true -> exists s sols objs qs f, o = Some (s, QSave sols objs, qs) /\ In f objs /\ PrimFloat.eqb (hd 0%float f) 0x1.000001p+1 = true).
  { intros [[[s q] qs]|]; [|discriminate]. destruct q as [|[|a [|[|x [|]] [|]]] [|o1 [|f [|]]]| | |]; cbn; try discriminate. intros H. apply andb_true_iff in H as [H _]. apply andb_true_iff in H as [_ H].
    eexists _, _, _, _, f. split; [reflexivity|]. split; [right; left; reflexivity|exact H]. }
  assert (C : t_check (nb_demo t_av t_P t_ideal t_nadir None [] t_ans) = true) by (vm_compute; reflexivity).
  destruct (G _ C) as (s & sols & objs & qs & f & E & Hf & Hh).
  destruct (demo_reach t_av t_P t_ideal t_nadir None [] t_ans _ E) as (s0 & I0 & R & Q). cbn [fst snd] in *.
  exists s0, s, qs, sols, objs, f. split; [exact I0|]. split; [exact R|]. split; [exact Q|]. split; [exact Hf|]. split; [left; reflexivity|].
  assert (M : Forall2 (matches t_P) sols objs).
  { pose proof (inv_reach t_av t_P t_ideal t_nadir None [] s0 s qs I0 R) as (_ & _ & J). rewrite Forall_forall in J. exact (J _ Q). }
  apply In_nth_error in Hf as (j & Hj). destruct (Forall2_nth _ _ _ _ _ M Hj) as (x & _ & i & _ & Ei).
  destruct i as [|[|i]]; cbn in Ei.
  - injection Ei as <-. vm_compute in Hh. discriminate Hh.
  - injection Ei as <-. repeat constructor.
  - destruct i; discriminate.
Qed.
Print Assumptions C99_short_classification_refuted.
