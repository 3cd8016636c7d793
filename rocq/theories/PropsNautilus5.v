(** * NAUTILUS and NAUTILUS 2 in IEEE doubles: monotone iteration points (C45). *)
From Coq Require Import ZArith List Bool Lia Sorted Reals Lra Floats.
From Flocq Require Import Core.
From Verif Require Import Num NumF64 Py Np Spec NpFacts F64Sums F64Step SFloat F64Vec F64Walk Hoare MNautilus SNautilus PNautilus PNautilus3 PNautilus4 PNautilus6 PropsNautilus PSolversF PropsSolvers4 SNautilusF PNautilusF.
Import ListNotations.
Local Open Scope R_scope.

(** ** C45 in doubles: after [t] answers no point of the trail exceeds the previous
    one, and the projection does not exceed the current point, by more than
    2 t 2^(e-49) -- for a problem whose objective values and starting point are
    finite and within 2^e, and an optimizer that exceeds its reference point by no
    more than is unavoidable. *)
Theorem C45_doubles_partial :
  forall (p : nt_problem F64) v eps k ideal nadir e s q qs st,
  nt_wf k p v ideal nadir -> (-1000 <= e <= 1019)%Z -> (forall x, fin_below e (np_eval p x)) -> fin_below e (nt_start v nadir) ->
  (forall w r x c, 0 <= c -> Forall ffin r -> (exists y, exceeds_by c (np_eval p y) r) ->
     np_min p w nadir (map (fun m => nsub m eps) ideal) r (np_x0 p) = Ok x -> exceeds_by c (np_eval p x) r) ->
  (exists y, exceeds_by 0 (np_eval p y) (nt_start v nadir)) ->
  nt_trail p v eps ideal nadir (counts_exact v) s (q :: qs) st -> qs <> [] -> (Z.of_nat (length qs) <= 2 ^ 49)%Z ->
  let slack := INR (2 * length qs) * bpow radix2 (e - 49) in
  exists z zs x f, st = z :: zs /\ Sorted (exceeds_by slack) (z :: zs) /\ last zs [] = nt_start v nadir /\
    nth_error (ns_xs s) (ns_step s) = Some (Some x) /\ nth_error (ns_fs s) (ns_step s) = Some (Some f) /\ f = np_eval p x /\ exceeds_by slack f z /\
    (forall z' lo up e', q = NReq z' lo up e' -> z' = z) /\
    (forall x' f', q = NStop x' f' -> x' = Some x /\ f' = Some f).
Proof.
  intros p v eps k ideal nadir e s q qs st WF He HF Hs HP H0 HT Hq Hl slack.
  destruct (trail_d p v eps k ideal nadir e WF He HF Hs HP H0 s q qs st HT) as [(E & _)|(L & w & V1 & V2 & V3 & HI & V5)]; [contradiction|].
  unfold inv_d in HI. cbn [tl] in HI. destruct (HI Hl) as ((rest & c & d & -> & HG & Ef & Hc & Hd & Hcd & Hf & Hz & SS & HL) & _).
  assert (Es : IZR (2 * Z.of_nat (length qs)) * step_slack e = slack).
  { unfold slack, step_slack. rewrite <- bpow_plus. replace (-49 + e)%Z with (e - 49)%Z by lia. f_equal. rewrite INR_IZR_INZ. f_equal. lia. }
  rewrite Es in *. exists (vz w), (vz0 w :: rest), (vx w), (vf w). split; [reflexivity|]. split; [exact SS|]. split; [rewrite last_cons; exact HL|].
  destruct V1 as ((((Est & _) & _) & Ex & Ef') & _). rewrite <- Est in Ex, Ef'.
  split; [exact Ex|]. split; [exact Ef'|]. split; [exact Ef|]. split; [eapply exc_le; [|exact Hf]; lra|]. split.
  - intros z' lo up e' ->. destruct V5 as [(b & e1 & E & _)|E]; [|discriminate]. injection E as -> _ _ _. reflexivity.
  - intros x g ->. destruct V5 as [(b & e1 & E & _)|E]; [discriminate|]. injection E as -> ->. auto.
Qed.
Print Assumptions C45_doubles_partial.

(** Sessions given by a list of answers. *)
Fixpoint session (p : nt_problem F64) v eps ideal nadir (ds : list (nt_dict F64)) (s : nt_state F64) (qs : list (nt_request F64)) (st : list (list F64))
  : option (nt_state F64 * list (nt_request F64) * list (list F64)) :=
  match ds, qs with
  | [], _ => Some (s, qs, st)
  | d :: ds', q :: _ =>
      match nt_validate v nadir q d, nt_iterate p v eps ideal nadir q (Some d) s with
      | Ok _, (s', Ok (Some q')) => session p v eps ideal nadir ds' s' (q' :: qs) (trail_next st q d q')
      | _, _ => None
      end
  | _, _ => None
  end.
Lemma session_trail (A : nt_request F64 -> nt_dict F64 -> Prop) p v eps ideal nadir ds : (forall q d, In d ds -> A q d) ->
  forall s qs st r, nt_trail p v eps ideal nadir A s qs st -> session p v eps ideal nadir ds s qs st = Some r ->
  nt_trail p v eps ideal nadir A (fst (fst r)) (snd (fst r)) (snd r).
Proof.
  induction ds as [|d ds IH]; intros HA s qs st r HT H; cbn [session] in H; [injection H as <-; exact HT|].
  destruct qs as [|q qs]; [discriminate|]. destruct (nt_validate v nadir q d) as [[]|] eqn:Ev; [|discriminate].
  destruct (nt_iterate p v eps ideal nadir q (Some d) s) as [s' [[q'|]|]] eqn:Ei; try discriminate.
  apply (IH (fun q0 d0 H0 => HA q0 d0 (or_intror H0)) s' (q' :: q :: qs) (trail_next st q d q') r); [|exact H]. eapply nt_run_step; eauto. apply HA. left. reflexivity.
Qed.

(** A problem with two attainable objective vectors and an optimizer that chooses the
    one that exceeds the reference point less. *)
Definition dlow : F64 := 0x1.999999999999ap-4%float. (* 0.1 *)
Definition dhigh : F64 := 0x1.3333333333333p-2%float. (* 0.3 *)
Definition dP : nt_problem F64 := MkNP
  (fun x => match x with [y] => if @neqb F64 y (nofZ 1) then [dlow; dhigh] else [dhigh; dlow] | _ => [dhigh; dlow] end) None []
  (fun _ _ _ q _ => Ok (match q with [a; b] => if @nleb F64 a b then [nofZ 1] else [nofZ 2] | _ => [nofZ 2] end))
  (fun _ _ _ => Ok [nofZ 1]).
Lemma dlow_val : ffin dlow /\ 0.09 <= fval dlow <= 0.11.
Proof. split; [reflexivity|]. rewrite fval_sf. set (t := Prim2SF _). vm_compute in t. subst t. cbn. unfold F2R. cbn. lra. Qed.
Lemma dhigh_val : ffin dhigh /\ 0.29 <= fval dhigh <= 0.31.
Proof. split; [reflexivity|]. rewrite fval_sf. set (t := Prim2SF _). vm_compute in t. subst t. cbn. unfold F2R. cbn. lra. Qed.
Definition d_ds : list (nt_dict F64) := [a_init 4 1 ranks12; a_new (PArr [f999; f01]); a_short; a_keep].
Definition d_run := match session dP NV1 eEps eI eN d_ds nt_init [NInit] [eN] with Some r => r | None => (nt_init, [], []) end.
Lemma fin1 : ffin (nofZ 1 : F64) /\ fval (nofZ 1 : F64) = 1.
Proof. exact (f64_ofZ_exact 1 ltac:(lia)). Qed.
Lemma d_eval x : np_eval dP x = [dlow; dhigh] \/ np_eval dP x = [dhigh; dlow].
Proof. unfold dP. cbn [np_eval]. destruct x as [|y [|? ?]]; auto. destruct (neqb y (nofZ 1)); auto. Qed.
Lemma d_below x : fin_below 2 (np_eval dP x).
Proof.
  assert (A : forall y : F64, ffin y -> 0 <= fval y <= 1 -> ffin y /\ Rabs (fval y) <= bpow radix2 2).
  { intros y F B. split; [exact F|]. rewrite Rabs_pos_eq by lra. change (bpow radix2 2) with 4. lra. }
  destruct dlow_val, dhigh_val. destruct (d_eval x) as [-> | ->]; (constructor; [apply A; auto; lra|]); (constructor; [apply A; auto; lra|constructor]).
Qed.
Lemma d_optimizer (w r x : list F64) c : 0 <= c -> Forall ffin r -> (exists y, exceeds_by c (np_eval dP y) r) ->
  np_min dP w eN (map (fun m => nsub m eEps) eI) r (np_x0 dP) = Ok x -> exceeds_by c (np_eval dP x) r.
Proof.
  intros Hc Hr (y & Hy) H. destruct dlow_val as [Fl Bl], dhigh_val as [Fh Bh].
  assert (HS : exists a b, r = [a; b] /\ (fval dlow <= fval a + c /\ fval dhigh <= fval b + c \/ fval dhigh <= fval a + c /\ fval dlow <= fval b + c)).
  { destruct (d_eval y) as [E|E]; rewrite E in Hy; inversion Hy as [|? a ? ? Ha Hb]; inversion Hb as [|? b ? ? Hb' Hn]; inversion Hn; subst; exists a, b; auto. }
  destruct HS as (a & b & -> & HS). inversion Hr as [|? ? Fa Hr']; inversion Hr' as [|? ? Fb _]; subst.
  unfold dP in H. cbn [np_min] in H. injection H as <-. change (@nleb F64 a b) with (PrimFloat.leb a b). rewrite f64_leb_val by auto.
  destruct (Rle_bool_spec (fval a) (fval b)) as [L|L]; unfold dP; cbn [np_eval].
  - replace (@neqb F64 (nofZ 1) (nofZ 1)) with true by (vm_compute; reflexivity). apply Forall2_cons; [lra|apply Forall2_cons; [lra|apply Forall2_nil]].
  - replace (@neqb F64 (nofZ 2) (nofZ 1)) with false by (vm_compute; reflexivity). apply Forall2_cons; [lra|apply Forall2_cons; [lra|apply Forall2_nil]].
Qed.
Lemma d_run_ok : session dP NV1 eEps eI eN d_ds nt_init [NInit] [eN] = Some d_run.
Proof.
  unfold d_run. assert (A : (if session dP NV1 eEps eI eN d_ds nt_init [NInit] [eN] then true else false) = true) by (vm_compute; reflexivity).
  destruct (session dP NV1 eEps eI eN d_ds nt_init [NInit] [eN]); [reflexivity|discriminate].
Qed.
(** A session of four answers -- four iterations, new preferences, a short step back, a
    step forward -- on that problem. *)
Example C45_doubles_hypotheses_met :
  nt_wf 2 dP NV1 eI eN /\ (forall x, fin_below 2 (np_eval dP x)) /\ fin_below 2 (nt_start NV1 eN) /\
  (forall w r x c, 0 <= c -> Forall ffin r -> (exists y, exceeds_by c (np_eval dP y) r) ->
     np_min dP w eN (map (fun m => nsub m eEps) eI) r (np_x0 dP) = Ok x -> exceeds_by c (np_eval dP x) r) /\
  (exists y, exceeds_by 0 (np_eval dP y) (nt_start NV1 eN)) /\
  nt_trail dP NV1 eEps eI eN (counts_exact NV1) (fst (fst d_run)) (snd (fst d_run)) (snd d_run) /\
  length (snd (fst d_run)) = 5%nat /\ length (snd d_run) = 4%nat.
Proof.
  destruct fin1 as [F1 E1]. destruct dlow_val as [Fl Bl], dhigh_val as [Fh Bh].
  assert (Bn : ffin (nofZ 1 : F64) /\ Rabs (fval (nofZ 1 : F64)) <= bpow radix2 2) by (split; [exact F1|]; rewrite E1, Rabs_pos_eq by lra; change (bpow radix2 2) with 4; lra).
  split; [|split; [exact d_below|split; [|split; [exact d_optimizer|split; [|split]]]]].
  - repeat split; auto. intros x. destruct (d_eval x) as [-> | ->]; reflexivity.
  - constructor; [exact Bn|constructor; [exact Bn|constructor]].
  - exists [nofZ 1]. destruct (d_eval [nofZ 1]) as [-> | ->]; (constructor; [change (fval 1%float) with (fval (nofZ 1 : F64)); rewrite E1; lra|constructor; [change (fval 1%float) with (fval (nofZ 1 : F64)); rewrite E1; lra|constructor]]).
  - apply (session_trail (counts_exact NV1) dP NV1 eEps eI eN d_ds) with (s := nt_init) (qs := [NInit]) (st := [eN]); [|exact (nt_run_start dP NV1 eEps eI eN trail_next [nt_start NV1 eN] (counts_exact NV1))|exact d_run_ok].
    intros q d Hd. split; [exact I|]. intros o m Eo Em. destruct Hd as [<-|[<-|[<-|[<-|[]]]]]; cbn in Eo; try discriminate. injection Eo as <-. cbn in Em. injection Em as <-. lia.
  - split; vm_compute; reflexivity.
Qed.

(** Exactly it fails in doubles: the only attainable vector is the nadir (0.1, 0.1)
    itself, five iterations are asked for, and the first iteration point is
    0.8 * 0.1 + 0.2 * 0.1 = 0.10000000000000002 > 0.1. *)
Definition tP : nt_problem F64 := MkNP (fun _ => [dlow; dlow]) None [] (fun _ _ _ _ _ => Ok []) (fun _ _ _ => Ok []).
Definition tN : list F64 := [dlow; dlow].
Definition t_1 := nt_iterate tP NV1 eEps eI tN NInit (Some (a_init 5 1 ranks12)) nt_init.
Theorem C45_rounding_refuted :
  (forall (w r x : list F64) c, 0 <= c -> Forall ffin r -> (exists y, exceeds_by c (np_eval tP y) r) ->
     np_min tP w tN (map (fun m => nsub m eEps) eI) r (np_x0 tP) = Ok x -> exceeds_by c (np_eval tP x) r) /\
  exceeds_by 0 (np_eval tP []) (nt_start NV1 tN) /\
  nt_validate NV1 tN NInit (a_init 5 1 ranks12) = Ok tt /\
  nt_iterate tP NV1 eEps eI tN NInit (Some (a_init 5 1 ranks12)) nt_init = (fst t_1, Ok (Some (oq (snd t_1)))) /\
  first_gt (point (oq (snd t_1))) tN = true.
Proof.
  split; [intros w r x c _ _ (y & Hy) _; exact Hy|]. split; [apply exc_refl|]. split; [vm_compute; reflexivity|].
  split; [vm_cast_no_check (eq_refl t_1)|vm_compute; reflexivity].
Qed.
Print Assumptions C45_rounding_refuted.
