(** * C105: NAUTILUS Navigator, the order of the solutions in the front *)
From Coq Require Import ZArith Reals Lra List Bool Lia Permutation.
From Verif Require Import Num NumXR Py Np Spec NpFacts XRFacts PAsf MNavigator SNavigator SNavOrder PNavigator PNavigator2 PNavigator3 PNavigator4 PNavigator6 PNavOrder.
Import ListNotations.
Open Scope R_scope.

Lemma xr_eq (x y : XR) : neqb x y = true -> x = y.
Proof.
  intros H. cbn [neqb XR] in H. unfold xeqb in H. apply andb_prop in H. destruct H as [A B].
  destruct x as [| | |a], y as [| | |b]; cbn in A, B; try discriminate; auto.
  apply xleb_fin in A. apply xleb_fin in B. f_equal. lra.
Qed.

(** Two objects of the method, with the same ideal and nadir points and the same
    solutions in another order, which get the same answers, show the same: as long as
    the achievement function tells different solutions apart for the reference points
    used, all requests so far show the same, the next answer is accepted by both or by
    none, and it has the same outcome in both. *)
Theorem C105_row_order (asf : asf_fn) k (F1 F2 : list (list XR)) ideal nadir vars1 vars2 p (used : list XR -> Prop) s1 s2 qs :
  setup k F1 ideal nadir vars1 -> reordered p F1 F2 -> reordered_vars p vars1 vars2 ->
  (forall ref, used ref -> proper_asf asf F1 ideal nadir ref /\ no_ties asf F1 ideal nadir ref) ->
  nv_twins asf F1 F2 ideal nadir vars1 vars2 used s1 s2 qs ->
  (forall q1 q2, In (q1, q2) qs -> shows_same p (length F1) q1 q2) /\
  (forall c1 c2 d, In (NReq c1, NReq c2) qs -> nv_validate c1 d = nv_validate c2 d) /\
  (forall c1 c2 d, In (NReq c1, NReq c2) qs -> nv_validate c1 d = Ok tt -> (forall ref, nd_ref d = Some ref -> used ref) ->
     same_outcome p (length F1) (snd (nv_iterate asf (NReq c1) (Some d) s1)) (snd (nv_iterate asf (NReq c2) (Some d) s2))).
Proof.
  intros HS HF HV HU H. pose proof (tw_all XR_ord xr_eq asf k F1 F2 ideal nadir vars1 vars2 p used HS HF HV HU s1 s2 qs H) as T.
  assert (SM : forall q1 q2, In (q1, q2) qs -> shows_same p (length F1) q1 q2).
  { intros q1 q2 Hin. destruct T as [_ _ _ _ SM]. rewrite Forall_forall in SM. exact (SM _ Hin). }
  split; [exact SM|]. split.
  - intros c1 c2 d Hin. destruct (SM _ _ Hin) as (E1 & E2 & _). unfold nv_validate. rewrite E1, E2. reflexivity.
  - intros c1 c2 d Hin Hv Hu. destruct (nv_iterate asf (NReq c1) (Some d) s1) as [s1' o1] eqn:I1. destruct (nv_iterate asf (NReq c2) (Some d) s2) as [s2' o2] eqn:I2.
    cbn [snd]. eapply (tw_step XR_ord xr_eq asf k F1 F2 ideal nadir vars1 vars2 p used HS HF HV HU); eauto.
Qed.
Print Assumptions C105_row_order.

(** ** The hypotheses can be met: the rows of the demo front reversed, the library's
    achievement function, one forward answer. *)
Definition oF2 : list (list R) := [[2; 0]; [1; 1]; [0; 2]].
Definition oV2 : list (list XR) := xm [[12]; [11]; [10]].
Definition oq : list R := [1 / 2; 2].
Definition odict : nv_dict XR := MkND (Some (xv oq)) (Some (VInt 3)) (Some (VBool false)) (Some [None; None]) (Some (VBool false)).
Definition orev (i : nat) : nat := (2 - i)%nat.

Lemma pm_value (a b u v : R) :
  @pm_asf XR (xv nnd) (xv nid) (xv [a; b]) (xv [u; v]) =
  (Fin (Rmax ((a - u) / (2 + / 1000000)) ((b - v) / (2 + / 1000000)) + / 1000000 * ((a - u) / (2 + / 1000000) + (b - v) / (2 + / 1000000))) : XR).
Proof.
  unfold pm_asf, pm_terms, vdiv, vsub. rewrite eps6_xr. cbn [xv map zipw nnd nid].
  assert (D : forall x y : R, @ndiv XR (@nsub XR (Fin x) (Fin y)) (@nsub XR (Fin 2) (@nsub XR (Fin 0) (Fin (1 / 1000000)))) = (Fin ((x - y) / (2 + / 1000000)) : XR)).
  { intros x y. change (xdiv (Fin (x - y)) (Fin (2 - (0 - 1 / 1000000))) = Fin ((x - y) / (2 + / 1000000))).
    rewrite xdiv_fin by lra. f_equal. f_equal. lra. }
  rewrite !D. cbn [fold_left]. rewrite nmax_xr.
  assert (S : @vsum XR [Fin ((a - u) / (2 + / 1000000)); Fin ((b - v) / (2 + / 1000000))] = (Fin ((a - u) / (2 + / 1000000) + (b - v) / (2 + / 1000000)) : XR)).
  { unfold vsum. etransitivity; [exact (vsum_xr [(a - u) / (2 + / 1000000); (b - v) / (2 + / 1000000)] 0)|]. cbn [fold_left]. f_equal. lra. }
  etransitivity; [exact (f_equal2 (@nadd XR) eq_refl (f_equal (@nmul XR _) S))|].
  match goal with |- nadd (Fin ?x) (nmul (Fin ?y) (Fin ?z)) = _ => change (Fin (x + y * z) = (Fin (x + / 1000000 * z) : xr)) end.
  unfold Rdiv. rewrite Rmult_1_l. reflexivity.
Qed.
Lemma oF_no_ties : no_ties (N:=XR) pm_asf (xm nF) (xv nid) (xv nnd) (xv oq).
Proof.
  intros r r' Hr Hr' E. apply xr_eq in E. apply in_map_iff in Hr. destruct Hr as (f & <- & Hf). apply in_map_iff in Hr'. destruct Hr' as (f' & <- & Hf').
  unfold oq in E. set (D := 2 + / 1000000) in *.
  assert (HD : 0 < / D). { apply Rinv_0_lt_compat. unfold D. lra. }
  assert (V : forall a, (a = 0 \/ a = 1 \/ a = 2) -> @pm_asf XR (xv nnd) (xv nid) (xv [a; 2 - a]) (xv [1 / 2; 2]) = (Fin ((if Req_EM_T a 0 then 0 else a - 1 / 2) * / D + / 1000000 * (- 1 / 2 * / D)) : XR)).
  { intros a Ha. rewrite pm_value. fold D. unfold Rdiv. rewrite <- Rmult_plus_distr_r. f_equal. f_equal; [|f_equal; f_equal; lra].
    rewrite (Rmult_comm _ (/ D)), (Rmult_comm (2 - a - 2) (/ D)), RmaxRmult by lra. rewrite Rmult_comm. f_equal. destruct (Req_EM_T a 0) as [->|Hn].
    - rewrite Rmax_right; lra.
    - rewrite Rmax_left; lra. }
  simpl in Hf, Hf'.
  replace [0; 2] with [0; 2 - 0] in * by (repeat f_equal; lra). replace [1; 1] with [1; 2 - 1] in * by (repeat f_equal; lra). replace [2; 0] with [2; 2 - 2] in * by (repeat f_equal; lra).
  destruct Hf as [<-|[<-|[<-|[]]]], Hf' as [<-|[<-|[<-|[]]]]; try reflexivity; exfalso; rewrite !V in E by auto;
    injection E as E; repeat destruct (Req_EM_T _ _); nra.
Qed.

Lemma orev_reordered {A} (a b c : A) : reordered orev [a; b; c] [c; b; a].
Proof.
  split; [reflexivity|]. split; cbn [length]; unfold orev.
  - intros i Hi. destruct i as [|[|[|i]]]; cbn; repeat split; auto; lia.
  - intros i j Hi Hj. lia.
Qed.
Lemma odict_valid c : nc_ideal c = xv nid -> nc_nadir c = xv nnd -> nv_validate c odict = Ok tt.
Proof.
  intros E1 E2. unfold nv_validate, odict. cbn [nd_ref nd_speed nd_prev nd_bounds nd_stop]. rewrite E1, E2.
  rewrite (bany_false_xr nltb (xv oq) (xv nid)) by (auto; repeat constructor; apply xltb_fin_false; lra).
  rewrite (bany_false_xr (fun x y => nltb y x) (xv oq) (xv nnd)) by (auto; repeat constructor; apply xltb_fin_false; lra).
  reflexivity.
Qed.
Example C105_hypotheses_met :
  setup (N:=XR) 2 (xm nF) (xv nid) (xv nnd) (Some nV) /\ reordered orev (xm nF) (xm oF2) /\ xm nF <> xm oF2 /\
  reordered_vars orev (Some nV) (Some oV2) /\
  (forall ref, ref = (xv oq : list XR) -> proper_asf (N:=XR) pm_asf (xm nF) (xv nid) (xv nnd) ref /\ no_ties (N:=XR) pm_asf (xm nF) (xv nid) (xv nnd) ref) /\
  exists s1 s2 c1 c2 qs, nv_twins (N:=XR) pm_asf (xm nF) (xm oF2) (xv nid) (xv nnd) (Some nV) (Some oV2) (fun ref => ref = xv oq) s1 s2 ((NReq c1, NReq c2) :: qs) /\ qs <> [].
Proof.
  assert (A : reordered orev (xm nF) (xm oF2)) by apply orev_reordered.
  assert (B : reordered_vars orev (Some nV) (Some oV2)) by apply orev_reordered.
  assert (C : forall ref, ref = (xv oq : list XR) -> proper_asf (N:=XR) pm_asf (xm nF) (xv nid) (xv nnd) ref /\ no_ties (N:=XR) pm_asf (xm nF) (xv nid) (xv nnd) ref).
  { intros ref ->. split; [apply nF_proper; reflexivity|apply oF_no_ties]. }
  repeat match goal with |- _ /\ _ => split end; auto; [apply nF_setup| |].
  - intros E. injection E as E _. lra.
  - set (i1 := nv_init (xm nF) (xv nid) (xv nnd) (Some nV)). set (i2 := nv_init (xm oF2) (xv nid) (xv nnd) (Some oV2)).
    destruct (nv_iterate pm_asf (nv_start i1) (Some odict) i1) as [s1 o1] eqn:I1. destruct (nv_iterate pm_asf (nv_start i2) (Some odict) i2) as [s2 o2] eqn:I2.
    pose proof (nv_twins_init pm_asf (xm nF) (xm oF2) (xv nid) (xv nnd) (Some nV) (Some oV2) (fun ref : list XR => ref = xv oq)) as T0.
    fold i1 i2 in T0. destruct (nv_start i1) as [c1|] eqn:S1; [|discriminate]. destruct (nv_start i2) as [c2|] eqn:S2; [|discriminate].
    assert (V : nv_validate c1 odict = Ok tt). { injection S1 as <-. apply odict_valid; reflexivity. }
    assert (U : forall ref : list XR, nd_ref odict = Some ref -> ref = xv oq). { intros ref E. cbn [nd_ref odict] in E. congruence. }
    pose proof (nv_twins_step _ _ _ _ _ _ _ _ i1 i2 _ c1 c2 odict s1 o1 s2 o2 T0 (or_introl eq_refl) V U I1 I2) as T1.
    assert (O : exists s' c', nv_iterate pm_asf (NReq c1) (Some odict) i1 = (s', Ok (NReq c'))).
    { eapply (forward_succeeds XR_ord 2) with (ref := xv oq); try exact V; try reflexivity.
      - apply nF_setup.
      - constructor.
      - fold i1. rewrite S1. left. reflexivity.
      - split; reflexivity.
      - apply C. reflexivity.
      - exists 0%nat. split; [cbn; auto|]. exists (xv [0; 2]). split; auto. intros (r & x & b & _ & Hb & Hlt).
        destruct r as [|[|r]]; cbn in Hb; try (destruct r; discriminate); injection Hb as <-; destruct x; discriminate.
      - discriminate. }
    destruct O as (s' & c' & O). rewrite I1 in O. injection O as -> ->.
    destruct (C105_row_order pm_asf 2 (xm nF) (xm oF2) (xv nid) (xv nnd) (Some nV) (Some oV2) orev (fun ref => ref = xv oq) i1 i2 _ nF_setup A B C T0) as (_ & _ & Z).
    specialize (Z c1 c2 odict (or_introl eq_refl) V U). rewrite I1, I2 in Z. cbn [snd] in Z.
    destruct o2 as [[c2'|]|]; cbn in Z; try contradiction. exists s', s2, c', c2', [(NReq c1, NReq c2)]. split; [exact T1|discriminate].
Qed.

(** Ties do matter (doubles): for the reference point (1, 2) the solutions (0, 2) and
    (1, 1) have the same value, the first of them in the front is followed, and the
    navigation points of the two objects differ after one and the same answer. *)
From Coq Require Import Floats.
From Verif Require Import NumF64.
Definition tF1 : list (list F64) := [[0; 2]; [1; 1]; [2; 0]]%float.
Definition tF2 : list (list F64) := [[2; 0]; [1; 1]; [0; 2]]%float.
Definition tid : list F64 := [0; 0]%float.
Definition tnd : list F64 := [2; 2]%float.
Definition tq : list F64 := [1; 2]%float.
Definition tdict : nv_dict F64 := MkND (Some tq) (Some (VInt 3)) (Some (VBool false)) (Some [None; None]) (Some (VBool false)).
Definition tnav (F : list (list F64)) : option (list F64) :=
  match snd (nv_iterate pm_asf (nv_start (nv_init F tid tnd None)) (Some tdict) (nv_init F tid tnd None)) with
  | Ok (NReq c) => Some (nc_nav c) | _ => None end.
Definition t_differ : bool :=
  match tnav tF1, tnav tF2 with Some (a :: _), Some (b :: _) => nltb (a : F64) b | _, _ => false end.
Example C105_ties_matter : reordered orev tF1 tF2 /\
  (forall c, nv_start (nv_init tF1 tid tnd None) = NReq c -> nv_validate c tdict = Ok tt) /\
  exists a l b l', tnav tF1 = Some (a :: l) /\ tnav tF2 = Some (b :: l') /\ nltb a b = true.
Proof.
  split; [apply orev_reordered|]. split.
  - intros c H. injection H as <-. vm_compute. reflexivity.
  - assert (E : t_differ = true) by (vm_compute; reflexivity). unfold t_differ in E. revert E.
    generalize (tnav tF1) (tnav tF2). intros [[|a l]|] [[|b l']|] E; try discriminate. repeat eexists. exact E.
Qed.
