(** * C111: NAUTILUS Navigator, constants added to the objectives *)
From Coq Require Import ZArith Reals Lra List Bool Lia Floats.
From Verif Require Import Num NumXR NumF64 Py Np Spec NpFacts XRFacts PAsf MNavigator SNavigator SNavShift PNavigator PNavigator2 PNavigator3 PNavigator4 PNavigator6 PNavShift PropsNavRef PropsOrder.
Import ListNotations.
Open Scope R_scope.

(** Two objects of the method, the second with a constant added to every objective (in
    the front, the ideal and the nadir), which get the same answers (the constants added
    to the reference points and the bounds), show the same up to the constants, in every
    request so far; the next answer is accepted by both or by none, and has the same
    outcome in both.  Partial: the changes of the reference point must be large enough to
    be noticed in both, or in neither ([same_changes]). *)
Theorem C111_constants_partial (asf : asf_fn) (t : list R) (F : list (list XR)) ideal nadir vars (used : list XR -> Prop) s1 s2 qs :
  ignores_constants asf -> setup (length t) F ideal nadir vars ->
  (forall ref, used ref -> length ref = length t) -> same_changes t used ->
  nv_shifted asf t F ideal nadir vars used s1 s2 qs ->
  (forall q1 q2, In (q1, q2) qs -> q2 = moved_request t q1) /\
  (forall c1 c2 d, In (NReq c1, NReq c2) qs -> (forall ref, nd_ref d = Some ref -> length ref = length t) ->
     nv_validate c2 (moved_answer t d) = nv_validate c1 d) /\
  (forall c1 c2 d, In (NReq c1, NReq c2) qs -> nv_validate c1 d = Ok tt -> (forall ref, nd_ref d = Some ref -> used ref) ->
     snd (nv_iterate asf (NReq c2) (Some (moved_answer t d)) s2) = rmap (moved_request t) (snd (nv_iterate asf (NReq c1) (Some d) s1))).
Proof.
  intros HA HS HL HC H. pose proof (shi_all asf t HA F ideal nadir vars used HS HL HC s1 s2 qs H) as T.
  assert (Q : forall q1 q2, In (q1, q2) qs -> q2 = moved_request t q1).
  { intros q1 q2 Hin. destruct T as [_ _ Q _]. rewrite Forall_forall in Q. exact (Q _ Hin). }
  split; [exact Q|]. split.
  - intros c1 c2 d Hin Hr. pose proof (g_reqs _ _ _ _ _ _ _ (sh_g _ _ _ _ _ _ _ _ _ T) c1 ltac:(apply (in_map fst) in Hin; exact Hin)) as C.
    pose proof (sh_g _ _ _ _ _ _ _ _ _ T) as G. destruct HS as (_ & S1 & S2 & _).
    eapply (validate_moved t); auto; [symmetry; apply Q; exact Hin| |].
    + rewrite (cw_ideal _ _ _ C), (g_ideal _ _ _ _ _ _ _ G). exact S1.
    + rewrite (cw_nadir _ _ _ C), (g_nadir _ _ _ _ _ _ _ G). exact S2.
  - intros c1 c2 d Hin Hv Hu. destruct (nv_iterate asf (NReq c1) (Some d) s1) as [s1' o1] eqn:I1. destruct (nv_iterate asf (NReq c2) (Some (moved_answer t d)) s2) as [s2' o2] eqn:I2.
    cbn [snd]. eapply (shi_step asf t HA F ideal nadir vars used HS HL HC); eauto.
Qed.
Print Assumptions C111_constants_partial.

(** The achievement function the method uses meets the first hypothesis. *)
Theorem C111_documented_function : ignores_constants pm_asf.
Proof. exact pm_ignores. Qed.
Print Assumptions C111_documented_function.

(** A sufficient condition for the proviso: two reference points used are the same or
    differ noticeably in some objective, whether or not its constant is added. *)
Definition far_apart (t q q' : list R) : Prop :=
  exists r a b, nth_error q r = Some a /\ nth_error q' r = Some b /\
    / 100000000 + / 100000 * Rabs b < Rabs (a - b) /\ / 100000000 + / 100000 * Rabs (b + nth r t 0) < Rabs (a - b).
Lemma close_at (u v : list XR) r x y : Forall2 close u v -> nth_error u r = Some x -> nth_error v r = Some y -> close x y.
Proof. intros H. revert r. induction H as [|a b u v H1 H2 IH]; intros [|r] A B; try discriminate; cbn in A, B; [congruence|eauto]. Qed.
Theorem C111_noticeable_changes (t : list R) (used : list XR -> Prop) :
  (forall ref, used ref -> exists q, ref = xv q /\ length q = length t) ->
  (forall q q', used (xv q) -> used (xv q') -> q = q' \/ far_apart t q q') -> same_changes t used.
Proof.
  intros HU HF x y Hx Hy. destruct (HU x Hx) as (q & -> & Lq), (HU y Hy) as (q' & -> & Lq').
  assert (M : forall v, moved t (xv v) = xv (zipw Rplus v t ++ skipn (length t) v)).
  { clear. induction t as [|c t IH]; intros [|x v]; cbn; auto. f_equal. apply IH. }
  destruct (allclose_close (moved t (xv q)) (moved t (xv q'))) as (b1 & E1 & C1); [rewrite !moved_length; unfold xv; rewrite !map_length; lia|].
  destruct (allclose_close (xv q) (xv q')) as (b2 & E2 & C2); [unfold xv; rewrite !map_length; lia|].
  rewrite E1, E2. f_equal. destruct (HF q q' Hx Hy) as [->|(r & a & b & Ha & Hb & D1 & D2)].
  - assert (R : forall v, Forall2 close (xv v) (xv v)).
    { induction v as [|x v IH]; cbn; constructor; auto. cbn. replace (x - x) with 0 by lra. rewrite Rabs_R0. pose proof (Rabs_pos x). lra. }
    rewrite (proj2 C1), (proj2 C2); auto. rewrite M. apply R.
  - assert (N2 : b2 <> true).
    { intros E. apply C2 in E. assert (E' : close (Fin a) (Fin b)). { apply (close_at _ _ r _ _ E); unfold xv; rewrite nth_error_map; [rewrite Ha|rewrite Hb]; reflexivity. } cbn in E'. lra. }
    assert (N1 : b1 <> true).
    { intros E. apply C1 in E. assert (E' : close (Fin (a + nth r t 0)) (Fin (b + nth r t 0))).
      { apply (close_at _ _ r _ _ E); rewrite moved_nth_error by (unfold xv; rewrite map_length; auto); unfold xv; rewrite nth_error_map; [rewrite Ha|rewrite Hb]; reflexivity. }
      cbn in E'.
      replace (a + nth r t 0 - (b + nth r t 0)) with (a - b) in E' by lra. lra. }
    destruct b1, b2; congruence.
Qed.
Print Assumptions C111_noticeable_changes.

(** ** The hypotheses can be met: 10 and -5 added to the objectives of the demo front,
    one forward answer. *)
Definition ht : list R := [10; -5].
Example C111_hypotheses_met :
  ignores_constants pm_asf /\ setup (N:=XR) (length ht) (xm nF) (xv nid) (xv nnd) (Some nV) /\
  (forall ref, ref = (xv oq : list XR) -> length ref = length ht) /\ same_changes ht (fun ref => ref = xv oq) /\
  moved_rows ht (xm nF) = xm [[0 + 10; 2 + -5]; [1 + 10; 1 + -5]; [2 + 10; 0 + -5]] /\
  exists s1 s2 c1 c2 qs, nv_shifted pm_asf ht (xm nF) (xv nid) (xv nnd) (Some nV) (fun ref => ref = xv oq) s1 s2 ((NReq c1, NReq c2) :: qs) /\ qs <> [].
Proof.
  assert (A : setup (N:=XR) (length ht) (xm nF) (xv nid) (xv nnd) (Some nV)) by apply nF_setup.
  assert (B : forall ref, ref = (xv oq : list XR) -> length ref = length ht) by (intros ref ->; reflexivity).
  assert (C : same_changes ht (fun ref => ref = xv oq)).
  { apply C111_noticeable_changes; [intros ref ->; exists oq; split; reflexivity|].
    intros q q' E1 E2. left. assert (J : forall u v : list R, xv u = xv v -> u = v).
    { clear. induction u as [|x u IH]; intros [|y v] H; cbn in H; try discriminate; auto. injection H as -> H. f_equal. auto. }
    apply J. congruence. }
  split; [exact pm_ignores|]. split; [exact A|]. split; [exact B|]. split; [exact C|]. split; [reflexivity|].
  set (i1 := nv_init (xm nF) (xv nid) (xv nnd) (Some nV)). set (i2 := nv_init (moved_rows ht (xm nF)) (moved ht (xv nid)) (moved ht (xv nnd)) (Some nV)).
  destruct (nv_iterate pm_asf (nv_start i1) (Some odict) i1) as [s1 o1] eqn:I1. destruct (nv_iterate pm_asf (nv_start i2) (Some (moved_answer ht odict)) i2) as [s2 o2] eqn:I2.
  pose proof (nv_shifted_init pm_asf ht (xm nF) (xv nid) (xv nnd) (Some nV) (fun ref : list XR => ref = xv oq)) as T0.
  fold i1 i2 in T0. destruct (nv_start i1) as [c1|] eqn:S1; [|discriminate]. destruct (nv_start i2) as [c2|] eqn:S2; [|discriminate].
  assert (V : nv_validate c1 odict = Ok tt). { injection S1 as <-. apply odict_valid; reflexivity. }
  assert (U : forall ref : list XR, nd_ref odict = Some ref -> ref = xv oq). { intros ref E. cbn [nd_ref odict] in E. congruence. }
  pose proof (nv_shifted_step _ _ _ _ _ _ _ i1 i2 _ c1 c2 odict s1 o1 s2 o2 T0 (or_introl eq_refl) V U I1 I2) as T1.
  assert (O : exists s' c', nv_iterate pm_asf (NReq c1) (Some odict) i1 = (s', Ok (NReq c'))).
  { eapply (forward_succeeds XR_ord 2) with (ref := xv oq); try exact V; try reflexivity.
    - apply nF_setup.
    - constructor.
    - fold i1. rewrite S1. left. reflexivity.
    - split; reflexivity.
    - apply nF_proper. reflexivity.
    - exists 0%nat. split; [cbn; auto|]. exists (xv [0; 2]). split; auto. intros (r & x & b & _ & Hb & Hlt).
      destruct r as [|[|r]]; cbn in Hb; try (destruct r; discriminate); injection Hb as <-; destruct x; discriminate.
    - discriminate. }
  destruct O as (s' & c' & O). rewrite I1 in O. injection O as -> ->.
  destruct (C111_constants_partial pm_asf ht (xm nF) (xv nid) (xv nnd) (Some nV) (fun ref => ref = xv oq) i1 i2 _ pm_ignores A B C T0) as (_ & _ & Z).
  specialize (Z c1 c2 odict (or_introl eq_refl) V U). rewrite I1, I2 in Z. cbn [snd] in Z. rewrite Z in T1.
  cbn [rmap moved_request] in T1. do 5 eexists. split; [exact T1|discriminate].
Qed.

(** Refuted in general (doubles): after 2^20 is added to both objectives, the change of
    the reference point from (0, 2) to (2, 0) is below 1e-5 of its entries and goes
    unnoticed; the navigation points of the two objects part by more than 2^-7. *)
Definition gF1 : list (list F64) := [[0; 2]; [1; 1]; [2; 0]]%float.
Definition gF2 : list (list F64) := [[0x100000; 0x100002]; [0x100001; 0x100001]; [0x100002; 0x100000]]%float.
Definition gans (a b : F64) : nv_dict F64 := MkND (Some [a; b]) (Some (VInt 1)) (Some (VBool false)) (Some [None; None]) (Some (VBool false)).
Definition gids (z : F64) : list F64 := [z; z].
Fixpoint grun (s : nv_state F64) (c : nv_content F64) (ds : list (nv_dict F64)) : option (nv_state F64 * nv_content F64) :=
  match ds with
  | [] => Some (s, c)
  | d :: ds' =>
      if is_ok (nv_validate c d)
      then match nv_iterate pm_asf (NReq c) (Some d) s with (s', Ok (NReq c')) => grun s' c' ds' | _ => None end
      else None
  end.
Lemma grun_session F id nd ds : forall s c ds0 s' c', nv_session (N:=F64) pm_asf F id nd None ds0 s c -> grun s c ds = Some (s', c') ->
  nv_session pm_asf F id nd None (ds0 ++ ds) s' c'.
Proof.
  induction ds as [|d ds IH]; intros s c ds0 s' c' H E; cbn [grun] in E.
  - injection E as <- <-. rewrite app_nil_r. exact H.
  - destruct (nv_validate c d) as [[]|] eqn:V; [|discriminate]. cbn [is_ok] in E. destruct (nv_iterate pm_asf (NReq c) (Some d) s) as [s1 [[c1|]|]] eqn:I; try discriminate.
    replace (ds0 ++ d :: ds) with ((ds0 ++ [d]) ++ ds) by (rewrite <- app_assoc; reflexivity). eapply IH; [|exact E]. econstructor; eauto.
Qed.
Definition gplay F id nd ds : option (nv_state F64 * nv_content F64) :=
  match nv_start (nv_init F id nd None) with NReq c => grun (nv_init F id nd None) c ds | _ => None end.
Lemma gplay_session F id nd ds s c : gplay F id nd ds = Some (s, c) -> nv_session pm_asf F id nd None ds s c.
Proof. unfold gplay. intros H. destruct (nv_start (nv_init F id nd None)) as [c0|] eqn:E0; [|discriminate]. apply (grun_session F id nd ds (nv_init F id nd None) c0 [] s c); [constructor; exact E0|exact H]. Qed.
Definition gcheck (r1 r2 : option (nv_state F64 * nv_content F64)) : bool :=
  match r1, r2 with
  | Some (_, c1), Some (_, c2) =>
      match nc_nav c1, nc_nav c2 with
      | [_; x], [_; y] => nltb (nadd x (0x1p-7%float : F64)) (nsub y (0x100000%float : F64))
      | _, _ => false
      end
  | _, _ => false
  end.
Lemma gcheck_inv F1 id1 nd1 ds1 F2 id2 nd2 ds2 : gcheck (gplay F1 id1 nd1 ds1) (gplay F2 id2 nd2 ds2) = true ->
  exists s1 c1 s2 c2 a x b y,
    nv_session (N:=F64) pm_asf F1 id1 nd1 None ds1 s1 c1 /\ nv_session (N:=F64) pm_asf F2 id2 nd2 None ds2 s2 c2 /\
    nc_nav c1 = [a; x] /\ nc_nav c2 = [b; y] /\ nltb (nadd x (0x1p-7%float : F64)) (nsub y (0x100000%float : F64)) = true.
Proof.
  unfold gcheck. intros H. destruct (gplay F1 id1 nd1 ds1) as [[s1 c1]|] eqn:E1; [|discriminate]. destruct (gplay F2 id2 nd2 ds2) as [[s2 c2]|] eqn:E2; [|discriminate].
  apply gplay_session in E1. apply gplay_session in E2.
  destruct (nc_nav c1) as [|a [|x [|]]] eqn:N1; try discriminate. destruct (nc_nav c2) as [|b [|y [|]]] eqn:N2; try discriminate.
  exists s1, c1, s2, c2, a, x, b, y. auto.
Qed.
Lemma gcheck_ok : gcheck (gplay gF1 (gids 0%float) (gids 2%float) [gans 0 2; gans 2 0]%float)
  (gplay gF2 (gids 0x100000%float) (gids 0x100002%float) [gans 0x100000 0x100002; gans 0x100002 0x100000]%float) = true.
Proof. vm_compute. reflexivity. Qed.
Theorem C111_unnoticed_change_refuted :
  exists s1 c1 s2 c2 a x b y,
    nv_session (N:=F64) pm_asf gF1 (gids 0%float) (gids 2%float) None [gans 0 2; gans 2 0]%float s1 c1 /\
    nv_session (N:=F64) pm_asf gF2 (gids 0x100000%float) (gids 0x100002%float) None [gans 0x100000 0x100002; gans 0x100002 0x100000]%float s2 c2 /\
    nc_nav c1 = [a; x] /\ nc_nav c2 = [b; y] /\ nltb (nadd x (0x1p-7%float : F64)) (nsub y (0x100000%float : F64)) = true.
Proof.
  exact (gcheck_inv _ _ _ _ _ _ _ _ gcheck_ok).
Qed.
Print Assumptions C111_unnoticed_change_refuted.
