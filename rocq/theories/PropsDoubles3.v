(** * Property theorems on IEEE doubles: NAUTILUS.
    Vocabulary in SFloat.v; see also PropsDoubles.v. *)
From Coq Require Import ZArith List Bool Lia Reals Lra Floats.
From Flocq Require Import Core.
From Verif Require Import Num NumXR NumF64 Py Np Spec NpFacts Hoare PRpm MNautilus SNautilus PNautilus PNautilus2 PNautilus3 PNautilus4 PNautilus5 PNautilus6 PNautilus7 PNautilus8 F64Sums F64Step SFloat F64Vec F64Walk PNautilus9.
Import ListNotations.
Local Open Scope R_scope.

(** The request number [j] of [n] on the way from [start] to the objective vector
    [f]: the point shown is j/n of the way, up to j * 2^-49 * 2^e in each
    component; the last one has the numbers of [f]; the upper bound shown is the
    point; the distance approximates the exact percentage of the point shown. *)
Definition shows_step (k : nat) (e n : Z) (start f : list F64) (j : nat) (q : nt_request F64) : Prop :=
  exists z lo d, q = NReq z lo z d /\ length z = k /\
    (forall i a b x, nth_error start i = Some a -> nth_error f i = Some b -> nth_error z i = Some x ->
       ffin x /\ Rabs (fval x - ((1 - INR j / IZR n) * fval a + INR j / IZR n * fval b)) <= INR j * bpow radix2 (-49) * bpow radix2 e) /\
    (Z.of_nat j = n -> same_numbers z f) /\
    ((e <= 499)%Z -> (Z.of_nat k <= 2 ^ 20)%Z ->
       (apart (-500) z start -> apart (-500) f start -> map fval f <> map fval start ->
          approximates (IZR (2 * Z.of_nat k + 10) * bpow radix2 (-52)) d
            (100 * rdist (map fval z) (map fval start) / rdist (map fval f) (map fval start))) /\
       (Z.of_nat j = n -> ~ close_to (-536) f start -> PrimFloat.eqb d 100 = true)).

Lemma shows_of k p v e n ideal nadir x j q : nt_wf k p v ideal nadir -> (1 <= n <= 2 ^ 49)%Z -> (Z.of_nat j <= n)%Z ->
  (forall x, fin_below e (np_eval p x)) -> fin_below e (nt_start v nadir) ->
  closed_f p v nadir e n x j q -> shows_step k e n (nt_start v nadir) (np_eval p x) j q.
Proof.
  intros WF Hn Hj BE Bs [H _]. destruct (H Hj) as (z & b & d & -> & W & Hd & Hl). exists z, b, d. split; [reflexivity|].
  pose proof (start_len p v k ideal nadir WF) as L1. pose proof (eval_len p v k ideal nadir WF x) as L2.
  assert (Lz : length z = k) by (destruct W as (L & _); len). split; [exact Lz|].
  assert (Bz := walkv_below n (Z.of_nat j) e _ _ z ltac:(lia) Hn Bs (BE x) W).
  split; [|split].
  - destruct W as (_ & _ & W). intros i a b' y Ha Hb Hy. rewrite INR_IZR_INZ. exact (W i a b' y Ha Hb Hy).
  - intros E. apply same_of_val; [apply (within_fin _ _ (BE x))|]. auto.
  - intros He5 Hk. assert (Bz5 := within_le (e + 1) 500 _ ltac:(lia) Bz). assert (Bp5 := within_le e 500 _ ltac:(lia) (BE x)). assert (Bn5 := within_le e 500 _ ltac:(lia) Bs).
    rewrite Hd. split.
    + intros Ay Az Ne. apply fpct_close; auto.
    + intros E Nc. change 100%float with (f64_ofZ 100). apply (fpct_100 _ (np_eval p x) _ k); auto.
      assert (S := Hl E). clear -S. induction S as [|a b' l m [_ E] S IH]; constructor; auto.
Qed.

(** ** C44: NAUTILUS *)
Theorem C44_convergence_doubles :
  forall (p : nt_problem F64) eps k ideal nadir n e s qs,
  nt_wf k p NV1 ideal nadir -> (-1000 <= e <= 1018)%Z -> (n <= 2 ^ 49)%Z ->
  (forall x, fin_below e (np_eval p x)) -> fin_below e nadir ->
  nt_path p NV1 eps ideal nadir (same_answers n) s qs -> (1 < length qs)%nat ->
  exists x w, np_min p w nadir (map (fun m => nsub m eps) ideal) nadir (np_x0 p) = Ok x /\
  forall j q, nth_error (rev qs) j = Some q -> (1 <= j)%nat ->
    ((Z.of_nat j <= n)%Z -> shows_step k e n nadir (np_eval p x) j q) /\
    ((n < Z.of_nat j)%Z -> q = NStop (Some x) (Some (np_eval p x))).
Proof.
  intros p eps k ideal nadir n e s qs WF He Hn BE Bs HP HL. destruct qs as [|q qs]; [cbn in HL; lia|].
  destruct (same_doubles p NV1 eps k ideal nadir e n WF ltac:(lia) Hn BE Bs s q qs HP) as (w & wt & H1 & H2 & H3 & q1 & qs1 & _ & _ & H4); [intros ->; cbn in HL; lia|].
  exists (vx w), wt. split; [exact H1|]. intros j q' Hj H. pose proof (H4 j q' Hj H) as C. split; [|apply C].
  intros Hjn. apply (shows_of k p NV1 e n ideal nadir); auto.
Qed.
Print Assumptions C44_convergence_doubles.

(** ** C50: NAUTILUS 2, from the starting point given *)
Theorem C50_convergence_doubles :
  forall (p : nt_problem F64) start fuel eps k ideal nadir n e s qs,
  nt_wf k p (NV2 start fuel) ideal nadir -> (-1000 <= e <= 1018)%Z -> (n <= 2 ^ 49)%Z ->
  (forall x, fin_below e (np_eval p x)) -> fin_below e start ->
  nt_path p (NV2 start fuel) eps ideal nadir (same_answers n) s qs -> (1 < length qs)%nat ->
  exists x w, np_min p w nadir (map (fun m => nsub m eps) ideal) start (np_x0 p) = Ok x /\
  forall j q, nth_error (rev qs) j = Some q -> (1 <= j)%nat ->
    ((Z.of_nat j <= n)%Z -> shows_step k e n start (np_eval p x) j q) /\
    ((n < Z.of_nat j)%Z -> q = NStop (Some x) (Some (np_eval p x))).
Proof.
  intros p start fuel eps k ideal nadir n e s qs WF He Hn BE Bs HP HL. destruct qs as [|q qs]; [cbn in HL; lia|].
  destruct (same_doubles p (NV2 start fuel) eps k ideal nadir e n WF ltac:(lia) Hn BE Bs s q qs HP) as (w & wt & H1 & H2 & H3 & q1 & qs1 & _ & _ & H4); [intros ->; cbn in HL; lia|].
  exists (vx w), wt. split; [exact H1|]. intros j q' Hj H. pose proof (H4 j q' Hj H) as C. split; [|apply C].
  intros Hjn. apply (shows_of k p (NV2 start fuel) e n ideal nadir); auto.
Qed.
Print Assumptions C50_convergence_doubles.

(** The hypotheses are met by sessions of any length, with either method. *)
Local Open Scope float_scope.
Definition hf : list F64 := [0.1; 0.7].
Definition hP : nt_problem F64 := MkNP (fun _ => hf) None [] (fun _ _ _ _ _ => Ok []) (fun _ _ _ => Ok []).
Definition hN : list F64 := [1.1; 2.3].
Definition hI : list F64 := [0; 0].
Definition hr : list F64 := [1; 2].
Definition he : F64 := 0.001.
Definition hS : list F64 := [1.0; 2.0].
Definition hV2 : nt_variant F64 := NV2 hS 5.
Definition hA (n : Z) : nt_dict F64 := MkND (Some (VInt n)) None None None (Some (VInt 1)) (Some (PArr hr)).
Definition hK : nt_dict F64 := MkND None (Some (VBool false)) (Some (VBool false)) (Some (VBool true)) None None.
Lemma h_total : nt_total hP.
Proof. split; intros; exists []; reflexivity. Qed.
Lemma h_valid v n : v = NV1 \/ v = hV2 -> (1 <= n)%Z -> nt_validate v hN NInit (hA n) = Ok tt.
Proof.
  intros Hv Hn. cbn [nt_validate hA nd_n nd_back nd_prev].
  assert (E : nt_check_pref v (length hN) (hA n) = Ok tt) by (unfold nt_check_pref; cbn [nd_method nd_info hA]; destruct Hv as [-> | ->]; vm_compute; reflexivity).
  rewrite E. cbn [rbind]. unfold nt_check_n. cbn [as_int]. destruct (Z.ltb_spec n 1); [lia|reflexivity].
Qed.
Lemma h_session v m n : v = NV1 \/ v = hV2 -> (1 <= m)%nat -> (1 <= n)%Z -> exists s qs, length qs = S m /\ nt_path hP v he hI hN (same_answers n) s qs.
Proof.
  intros Hvv Hm Hn. assert (WF : nt_wf 2 hP v hI hN) by (destruct Hvv as [-> | ->]; repeat split; auto).
  assert (mon : forall s qs, nt_path hP v he hI hN (same_answers n) s qs -> nt_path hP v he hI hN (any_answers v) s qs).
  { intros s qs H. refine (run_weaken _ _ _ _ _ _ _ _ _ _ _ _ _ H). intros q d [_ H1]. destruct Hvv as [-> | ->]; [exact Logic.I|]. intros H2. apply H1, H2. }
  assert (AI : any_answers v NInit (hA n)) by (destruct Hvv as [-> | ->]; cbn; auto; congruence).
  assert (AK : forall q, any_answers v q hK) by (intros q; destruct Hvv as [-> | ->]; cbn; auto).
  induction m as [|m IH]; [lia|]. destruct m as [|m].
  - destruct (progress hP v he 2 hI hN WF h_total nt_init NInit [] (hA n)) as (s' & q' & E).
    + apply nt_run_start. + apply h_valid; auto. + exact AI.
    + cbn [complete]. unfold usable. cbn [hA nd_method nd_info]. destruct Hvv as [-> | ->]; eexists _, _, _; (split; [reflexivity|]); (split; [reflexivity|]); cbv; reflexivity.
    + exists s', [q'; NInit]. split; [reflexivity|]. unfold nt_path. change tt with ((fun _ _ _ _ => tt) tt (@NInit F64) (hA n) q'). eapply nt_run_step; [apply nt_run_start|apply h_valid; auto| |exact E].
      split; [intros _; exists (VInt n); split; reflexivity|congruence].
  - destruct IH as (s & qs & HL & HP); [lia|]. destruct qs as [|q qs]; [discriminate|].
    assert (Hq : q <> NInit).
    { apply (run_not_init _ _ _ _ _ _ _ _ _ _ _ _ HP). intros ->. cbn in HL. lia. }
    assert (HV : nt_validate v hN q hK = Ok tt) by (destruct Hvv as [-> | ->]; destruct q; first [congruence | reflexivity]).
    assert (HK : keeps hK) by (unfold keeps, says, hK; cbn; repeat split; eauto).
    destruct (progress hP v he 2 hI hN WF h_total s q qs hK (mon _ _ HP) HV) as (s' & q' & E); [apply AK| |].
    { destruct q; cbn [complete]; auto; [congruence|]. split; [intros (w & E & T); injection E as <-; discriminate|intros (w & E & T); injection E as <-; discriminate]. }
    exists s', (q' :: q :: qs). split; [cbn in *; lia|]. unfold nt_path. change tt with ((fun _ _ _ _ => tt) tt q hK q'). eapply nt_run_step; [exact HP|exact HV| |exact E].
    split; [contradiction|auto].
Qed.
Definition hfinb (w : list F64) : bool :=
  forallb (fun x => PrimFloat.is_finite x && PrimFloat.leb 0 x && PrimFloat.leb x (f64_ofZ 1024)) w.
Lemma hfinb_ok e w : (10 <= e)%Z -> hfinb w = true -> fin_below e w.
Proof.
  intros He H. unfold hfinb in H. rewrite forallb_forall in H. apply Forall_forall. intros x Hx. apply H in Hx.
  apply andb_true_iff in Hx. destruct Hx as [Hx H3]. apply andb_true_iff in Hx. destruct Hx as [H1 H2].
  destruct (f64_ofZ_exact 1024) as [G E]; [lia|]. split; auto.
  rewrite f64_leb_val in H2; [|exact ffin_0|exact H1]. rewrite f64_leb_val in H3; [|exact H1|exact G].
  assert (T : forall a b, Rle_bool a b = true -> (a <= b)%R) by (intros a b Hab; destruct (Rle_bool_spec a b); [auto|discriminate]).
  apply T in H2. apply T in H3. rewrite fval_0 in H2. rewrite E in H3.
  rewrite Rabs_pos_eq by exact H2. eapply Rle_trans; [exact H3|]. change 1024%R with (bpow radix2 10). apply bpow_le. exact He.
Qed.
Example C44_doubles_hypotheses_met : forall v m n, v = NV1 \/ v = hV2 -> (1 <= m)%nat -> (1 <= n)%Z -> exists s qs,
  nt_wf 2 hP v hI hN /\ (forall x, fin_below 499 (np_eval hP x)) /\ fin_below 499 hN /\ fin_below 499 hS /\
  nt_path hP v he hI hN (same_answers n) s qs /\ length qs = S m.
Proof.
  intros v m n Hv Hm Hn. destruct (h_session v m n Hv Hm Hn) as (s & qs & L & P). exists s, qs.
  split; [destruct Hv as [-> | ->]; repeat split; auto|]. split; [intros x; apply hfinb_ok; [lia|vm_compute; reflexivity]|].
  split; [apply hfinb_ok; [lia|vm_compute; reflexivity]|]. split; [apply hfinb_ok; [lia|vm_compute; reflexivity]|]. auto.
Qed.
