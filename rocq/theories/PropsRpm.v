(** * Properties of the Reference Point Method (C38-C42, C66, C104).
    [rp_reach p rho eps ideal nadir s qs]: after some history the method object is
    in state [s] and has issued the requests [qs]; any issued request may be
    iterated at any time, unanswered or with any response its setter accepts;
    failing calls are part of the history. *)
From Coq Require Import ZArith List Bool Lia Reals Lra Floats.
From Verif Require Import Num NumXR NumF64 Py Np Spec NpFacts XRFacts MAsf PAsf MRpm SRpm PRpm PRpm2 PRpm3 PRpm4.
Import ListNotations.

(** ** C38: k + 1 solutions per iteration *)
Theorem C38_solutions :
  forall (N : NumOps) (L : OrdLaws N) (p : rp_problem N) rho eps k ideal nadir s qs r d q s' r',
  rp_wf k p ideal nadir -> rp_reach p rho eps ideal nadir s qs -> In r qs ->
  rp_validate ideal nadir r d = Ok tt -> rp_continues r d q ->
  rp_iterate p rho eps ideal nadir r (Some d) s = (s', Ok r') ->
  let ut := map (fun x => nsub x eps) ideal in
  exists f fs w pqs x,
    r' = RReq f fs /\ length fs = k /\ length f = k /\
    (** the weights, the solution of the reference point, the perturbed points, their solutions *)
    bcast2 ndiv q (zipw nsub ut nadir) = Ok w /\
    rp_solves p rho w nadir ut q x f /\
    rp_perturbed q (vnorm (vsub q f)) pqs /\
    Forall2 (fun q' f' => exists x', rp_solves p rho w nadir ut q' x' f') pqs fs.
Proof.
  intros N L p rho eps k ideal nadir s qs r d q s' r' WF R Hin HV [Hd Hc] H ut.
  destruct (inv_reach L p rho eps k ideal nadir WF s qs R) as [I F]. rewrite Forall_forall in F. pose proof (F _ Hin) as Hr.
  destruct (continue_iter p rho eps k ideal nadir WF s r d s' (Ok r') Hr I HV H) as (v & s1 & Ev & Lv & I1 & _ & E).
  { destruct r; auto. }
  assert (v = q) by congruence. subst v.
  destruct (round_spec L p rho eps k ideal nadir WF s1 q s' (Ok r') I1 Lv E) as (_ & _ & w & Ew & G). cbv zeta in G. change (rp_utopian ideal eps) with ut in Ew, G.
  destruct G as [(e & x0 & Ee & _)|(x0 & x & f & pq & rs & X0 & X1 & X2 & X3 & Eo & _)]; [discriminate|].
  injection Eo as ->. destruct (solve_ok L p rho k ideal nadir WF w ut q x0 (x, f) X0 X1) as (S1 & _ & S3). cbn [fst snd] in *.
  destruct (prp_ok k q f Lv S3) as (pq' & P1 & P2 & P3). assert (pq' = pq) by congruence. subst pq'.
  exists f, (map snd rs), w, pq, x. split; auto. split; [rewrite map_length; apply Forall2_len in X3; congruence|].
  split; [auto|]. split; [auto|]. split; [auto|]. split; [auto|].
  clear - L WF X0 X3. induction X3 as [|a b pq rs Hab X3 IH]; cbn [map]; constructor; auto.
  exists (fst b). apply (solve_ok L p rho k ideal nadir WF w ut a x0 b X0 Hab).
Qed.
Print Assumptions C38_solutions.

(** On exact reals: the perturbed points are [q + |q - f| e_i]. *)
Theorem C38_perturbed_points :
  forall (p : rp_problem XR) rho eps k ideal nadir s qs r d q s' f fs,
  rp_wf k p ideal nadir -> rp_reach p rho eps ideal nadir s qs -> In r qs ->
  rp_validate ideal nadir r d = Ok tt -> rp_continues r d (xv q) ->
  rp_iterate p rho eps ideal nadir r (Some d) s = (s', Ok (RReq (xv f) fs)) ->
  exists w, Forall2 (fun q' f' => exists x', rp_solves p rho w nadir (map (fun x => nsub x eps) ideal) (xv q') x' f')
              (map (fun i => rbump q (rdist q f) i) (seq 0 k)) fs.
Proof.
  intros p rho eps k ideal nadir s qs r d q s' f fs WF R Hin HV Hc H.
  destruct (C38_solutions XR XR_ord p rho eps k ideal nadir s qs r d (xv q) s' _ WF R Hin HV Hc H) as (f' & fs' & w & pqs & x & E & Lfs & Lf & Ew & S & P & G).
  injection E as <- <-. assert (Lq : length q = k).
  { destruct G as [|? ? ? ? ? ?]. - destruct P as [P _]. cbn in P. rewrite xv_length in P. cbn in Lfs. lia. - apply Forall2_len in G. destruct P as [P _]. rewrite xv_length in P. cbn [length] in *. lia. }
  unfold vsub in P. rewrite vsub_xr, vnorm_sub in P. apply perturbed_xr in P. exists w. rewrite P, Lq in G. clear - G. unfold xm in G.
  revert G. change (map (fun i : nat => rbump q (rdist q f) i) (seq 0 k)) with (map (rbump q (rdist q f)) (seq 0 k)).
  generalize (map (rbump q (rdist q f)) (seq 0 k)). intros l. revert fs. induction l as [|a l IH]; intros fs G; cbn [map] in G; inversion G; subst; constructor; auto.
Qed.
Print Assumptions C38_perturbed_points.

(** ** C39: any number of iterations *)
Theorem C39_no_index_error :
  forall (N : NumOps) (L : OrdLaws N) (p : rp_problem N) rho eps k ideal nadir s qs r resp s' e,
  rp_wf k p ideal nadir -> rp_no_index_errors p -> rp_reach p rho eps ideal nadir s qs -> In r qs ->
  (forall d, resp = Some d -> rp_validate ideal nadir r d = Ok tt) ->
  rp_iterate p rho eps ideal nadir r resp s = (s', Raise e) -> e <> IndexErr.
Proof.
  intros N L p rho eps k ideal nadir s qs r resp s' e WF NI R Hin HV H.
  destruct (inv_reach L p rho eps k ideal nadir WF s qs R) as [I F]. rewrite Forall_forall in F. pose proof (F _ Hin) as Hr.
  assert (G : forall d, resp = Some d -> match r with RInit => True | RReq _ _ => rp_satisfied d = false | RStop _ _ => False end -> e <> IndexErr).
  { intros d -> Hc. destruct (continue_iter p rho eps k ideal nadir WF s r d s' (Raise e) Hr I (HV _ eq_refl) H Hc) as (v & s1 & Ev & Lv & I1 & _ & E).
    destruct (round_spec L p rho eps k ideal nadir WF s1 v s' (Raise e) I1 Lv E) as (_ & _ & w & _ & [(e' & x0 & Ee & _ & (q' & Hs & _) & _)|(x0 & x & f & pq & rs & _ & _ & _ & _ & Eo & _)]); [|discriminate].
    injection Ee as <-. eapply solve_err; eauto. }
  destruct resp as [d|].
  2:{ destruct r as [|f af|x f]; unfold rp_iterate, sbind, lift, rp_resp, sret in H; injection H as <- Ee; subst; discriminate. }
  destruct r as [|f af|x f]; [apply (G d eq_refl Logic.I)| |].
  - destruct (rp_satisfied d) eqn:Es; [|apply (G d eq_refl Es)].
    destruct Hr as [Lf _]. destruct (satisfied_spec p rho eps k ideal nadir s f af d s' (Raise e) I Lf Es (HV _ eq_refl) H) as (_ & [Ee|(q' & Ee & _)] & _); congruence.
  - unfold rp_iterate, sret in H. discriminate.
Qed.
Print Assumptions C39_no_index_error.

(** With a solver that always answers, an accepted reference point never fails. *)
Theorem C39_continuing_never_fails :
  forall (N : NumOps) (L : OrdLaws N) ev co x0 mi rho eps k ideal nadir s qs r d q s' out,
  let p : rp_problem N := RMO ev co x0 mi in
  rp_wf k p ideal nadir -> (forall w n u q x0, exists x, mi w n u q x0 = Ok x) ->
  rp_reach p rho eps ideal nadir s qs -> In r qs ->
  rp_validate ideal nadir r d = Ok tt -> rp_continues r d q ->
  rp_iterate p rho eps ideal nadir r (Some d) s = (s', out) -> exists r', out = Ok r'.
Proof.
  intros N L ev co x0 mi rho eps k ideal nadir s qs r d q s' out p WF HT R Hin HV [Hd Hc] H.
  destruct (inv_reach L p rho eps k ideal nadir WF s qs R) as [I F]. rewrite Forall_forall in F. pose proof (F _ Hin) as Hr.
  destruct (continue_iter p rho eps k ideal nadir WF s r d s' out Hr I HV H) as (v & s1 & Ev & Lv & I1 & _ & E); [destruct r; auto|].
  destruct (round_spec L p rho eps k ideal nadir WF s1 v s' out I1 Lv E) as (_ & _ & w & _ & [(e' & x1 & Ee & _ & (q' & Hs & _) & _)|(? & x & f & pq & rs & _ & _ & _ & _ & Eo & _)]); [|eauto].
  unfold p in Hs. cbn [rp_solve] in Hs. destruct (HT w nadir (rp_utopian ideal eps) q' x1) as (x & Ex). rewrite Ex in Hs. discriminate.
Qed.
Print Assumptions C39_continuing_never_fails.

(** On finite data the bundled solver always answers. *)
Theorem C39_discrete_never_fails :
  forall objs decs rho eps ideal nadir s qs r d q s' out,
  0 < length nadir -> length ideal = length nadir -> Forall (fun row => length row = length nadir) objs ->
  length decs = length objs -> objs <> [] -> Forall2 (fun i n => i - eps < n)%R ideal nadir ->
  let p : rp_problem XR := RDisc (xm objs) decs in
  rp_reach p (Fin rho) (Fin eps) (xv ideal) (xv nadir) s qs -> In r qs ->
  rp_validate (xv ideal) (xv nadir) r d = Ok tt -> rp_continues r d (xv q) ->
  rp_iterate p (Fin rho) (Fin eps) (xv ideal) (xv nadir) r (Some d) s = (s', out) -> exists r', out = Ok r'.
Proof.
  intros objs decs rho eps ideal nadir s qs r d q s' out Hk Li HM Ld Hne Hlt p R Hin HV [Hd Hc] H.
  assert (WF : rp_wf (length nadir) p (xv ideal) (xv nadir)) by (apply disc_wf; auto).
  destruct (inv_reach XR_ord p _ _ (length nadir) _ _ WF s qs R) as [I F]. rewrite Forall_forall in F. pose proof (F _ Hin) as Hr.
  destruct (continue_iter p _ _ (length nadir) _ _ WF s r d s' out Hr I HV H) as (v & s1 & Ev & Lv & I1 & _ & E); [destruct r; auto|].
  assert (v = xv q) by congruence. subst v. rewrite xv_length in Lv.
  eapply (disc_round_total objs decs rho eps ideal nadir); eauto.
Qed.
Print Assumptions C39_discrete_never_fails.

(** ** C40: the selected solution *)
(** [0 .. k] are the integers accepted. *)
Theorem C40_accepted_indices :
  forall (N : NumOps) (L : OrdLaws N) (p : rp_problem N) rho eps k ideal nadir s qs f fs d z,
  rp_wf k p ideal nadir -> rp_reach p rho eps ideal nadir s qs -> In (RReq f fs) qs ->
  rp_satisfied d = true -> rd_idx d = Some (VInt z) ->
  (rp_validate ideal nadir (RReq f fs) d = Ok tt <-> (0 <= z <= Z.of_nat k)%Z).
Proof.
  intros N L p rho eps k ideal nadir s qs f fs d z WF R Hin Hs Hz.
  destruct (inv_reach L p rho eps k ideal nadir WF s qs R) as [_ F]. rewrite Forall_forall in F. destruct (F _ Hin) as [Lf _].
  cbn [rp_validate]. rewrite Hs, Hz. cbn [key rbind truthy py_eq py_ge py_le]. rewrite Lf. destruct (Z.eqb_spec z 0) as [->|Hn]; cbn [negb andb].
  - cbn [rbind Z.leb Z.compare]. destruct (Z.leb_spec 0 (Z.of_nat k)); split; intros; try lia; auto; discriminate.
  - destruct (Z.leb_spec 0 z); cbn [rbind]; [destruct (Z.leb_spec z (Z.of_nat k)); split; intros; auto; try lia; discriminate|]. split; [discriminate|lia].
Qed.
Print Assumptions C40_accepted_indices.

Lemma satisfied_stop {N : NumOps} (p : rp_problem N) rho eps ideal nadir d s s' q' : rp_satisfied d = true ->
  rp_handle p rho eps ideal nadir d s = (s', Ok q') -> exists x g, q' = RStop x g.
Proof.
  intros Hs H. unfold rp_handle in H. rewrite Hs in H. unfold sbind, lift, sget, sret in H.
  destruct (key (rd_idx d)) as [i|]; [|discriminate]. destruct (py_eq i 0).
  - destruct (at_ (rs_xs s) (rs_h s)); [|discriminate]. destruct (at_ (rs_fs s) (rs_h s)); [|discriminate]. injection H as <- <-. eauto.
  - destruct (at_ (rs_axs s) (rs_h s)) as [ax|]; [|discriminate]. destruct (sub_ ax (pred_val i)); [|discriminate].
    destruct (at_ (rs_afs s) (rs_h s)) as [af|]; [|discriminate]. destruct (sub_ af (pred_val i)); [|discriminate]. injection H as <- <-. eauto.
Qed.

(** [RReq f fs] has just been returned, in state [s']. The answer may be given to
    it, or to an earlier request [RReq f0 fs0]: what is returned is always the
    solution shown by the latest one. *)
Theorem C40_selected :
  forall (N : NumOps) (L : OrdLaws N) (p : rp_problem N) rho eps k ideal nadir s qs r d s' f fs d' z f0 fs0,
  rp_wf k p ideal nadir -> rp_reach p rho eps ideal nadir s qs -> In r qs ->
  rp_validate ideal nadir r d = Ok tt ->
  rp_iterate p rho eps ideal nadir r (Some d) s = (s', Ok (RReq f fs)) ->
  In (RReq f0 fs0) (RReq f fs :: qs) ->
  rp_satisfied d' = true -> rd_idx d' = Some (VInt z) -> rp_validate ideal nadir (RReq f0 fs0) d' = Ok tt ->
  exists x g,
    rp_iterate p rho eps ideal nadir (RReq f0 fs0) (Some d') s' = (s', Ok (RStop (Some x) (Some g))) /\
    nth_error (f :: fs) (Z.to_nat z) = Some g /\ rp_matches p x g /\
    (** and the stop request stays *)
    forall resp, rp_iterate p rho eps ideal nadir (RStop (Some x) (Some g)) resp s' = (s', Ok (RStop (Some x) (Some g))).
Proof.
  intros N L p rho eps k ideal nadir s qs r d s' f fs d' z f0 fs0 WF R Hin HV H Hin0 Hs Hz HV'.
  destruct (inv_reach L p rho eps k ideal nadir WF s qs R) as [I F]. pose proof F as F'. rewrite Forall_forall in F. pose proof (F _ Hin) as Hr.
  destruct (inv_step L p rho eps k ideal nadir WF s qs r (Some d) s' (Ok (RReq f fs)) I F' Hin) as [I' G]; [intros ? E; injection E as <-; exact HV|exact H|].
  pose proof (G _ eq_refl) as [Lf Lfs].
  assert (Lf0 : length f0 = k) by (destruct Hin0 as [E|Hin0]; [injection E as <- <-; auto|destruct (F _ Hin0); auto]).
  assert (Hc : match r with RInit => True | RReq _ _ => rp_satisfied d = false | RStop _ _ => False end).
  { destruct r as [|f1 af1|x1 f1]; [exact Logic.I| |].
    - destruct (rp_satisfied d) eqn:Es; [|reflexivity]. exfalso. destruct (satisfied_stop p rho eps ideal nadir d s s' _ Es H) as (x & g & E). discriminate.
    - unfold rp_iterate, sret in H. discriminate. }
  destruct (continue_iter p rho eps k ideal nadir WF s r d s' _ Hr I HV H Hc) as (v & s1 & Ev & Lv & I1 & _ & E).
  destruct (round_spec L p rho eps k ideal nadir WF s1 v s' _ I1 Lv E) as (_ & [Hh _] & w & _ & [(e' & x1 & Ee & _)|(x0 & x & f1 & pq & rs & X0 & X1 & _ & X3 & Eo & B1 & B2 & B3 & B4)]); [discriminate|].
  injection Eo as <- ->. rewrite <- Hh in B1, B2, B3, B4.
  destruct (rp_iterate p rho eps ideal nadir (RReq f0 fs0) (Some d') s') as [s2 out] eqn:E2.
  assert (E3 : rp_handle p rho eps ideal nadir d' s' = (s2, out)) by exact E2.
  destruct (satisfied_spec p rho eps k ideal nadir s' f0 fs0 d' s2 out I' Lf0 Hs HV' E3) as (-> & _ & G2).
  destruct (G2 z Hz) as (Hzk & y & g & ax & ag & C1 & C2 & C3 & C4 & D1 & D2).
  assert (y = Some x) by congruence. assert (g = Some f) by congruence. assert (ax = Some (map fst rs)) by congruence. assert (ag = Some (map snd rs)) by congruence. subst y g ax ag.
  destruct (Z.eq_dec z 0) as [->|Hn].
  - exists x, f. clear E2 E3. rewrite (D1 eq_refl). split; [reflexivity|]. split; [reflexivity|]. split; [|intros; reflexivity]. apply (solve_ok L p rho k ideal nadir WF _ _ _ _ _ X0 X1).
  - rewrite map_length in Lfs. destruct (nth_error rs (Z.to_nat z - 1)) as [ri|] eqn:Ei; [|apply nth_error_None in Ei; lia].
    exists (fst ri), (snd ri). rewrite (D2 (map fst rs) (map snd rs) (fst ri) (snd ri)); [|lia|auto|auto|rewrite nth_error_map, Ei; auto|rewrite nth_error_map, Ei; auto].
    split; [reflexivity|]. split. { replace (Z.to_nat z) with (S (Z.to_nat z - 1)) by lia. cbn. rewrite nth_error_map, Ei. auto. }
    split; [|intros; reflexivity]. destruct (Forall2_nth_r _ _ _ _ _ X3 Ei) as (a & _ & Ha). apply (solve_ok L p rho k ideal nadir WF _ _ _ _ _ X0 Ha).
Qed.
Print Assumptions C40_selected.

(** ** C41: validation of reference points *)
(** What the setter accepts: an array of the right length with at least one entry not worse than the nadir. *)
Theorem C41_accepts_exactly :
  forall (N : NumOps) (p : rp_problem N) k ideal nadir d,
  rp_wf k p ideal nadir ->
  (rp_validate ideal nadir RInit d = Ok tt <->
   exists q, rd_ref d = Some (RArr q) /\ length q = k /\
     exists i x y, nth_error nadir i = Some x /\ nth_error q i = Some y /\ nltb x y = false).
Proof.
  intros N p k ideal nadir d WF. cbn [rp_validate]. destruct (rd_ref d) as [a|].
  - rewrite (validate_ref_iff p k ideal nadir WF). destruct WF as (_ & Wi & _). split; intros (q & E & Lq & G); exists q; (split; [congruence|split; [congruence|auto]]).
  - split; [discriminate|]. intros (q & E & _). discriminate.
Qed.
Print Assumptions C41_accepts_exactly.

(** Every point the property allows is accepted, and only points of the right length. *)
Theorem C41_admissible_accepted_partial :
  forall (N : NumOps) (L : OrdLaws N) (p : rp_problem N) k ideal nadir d,
  rp_wf k p ideal nadir ->
  (forall q, rd_ref d = Some (RArr q) -> vle q nadir -> rp_validate ideal nadir RInit d = Ok tt) /\
  (rp_validate ideal nadir RInit d = Ok tt -> exists q, rd_ref d = Some (RArr q) /\ length q = k).
Proof.
  intros N L p k ideal nadir d WF. split.
  - intros q E H. apply (C41_accepts_exactly N p k ideal nadir d WF). pose proof (Forall2_len _ _ _ H) as Hl. destruct WF as (Hk & _ & Wn & _).
    exists q. split; auto. split; [congruence|]. destruct H as [|y x q nd Hxy H]; [cbn in *; lia|]. exists 0, x, y. split; auto. split; auto.
    destruct (nltb x y) eqn:Ex; auto. rewrite (ol_ltb N L) in Ex. rewrite Hxy in Ex. destruct (nleb x y); discriminate.
  - intros H. apply (C41_accepts_exactly N p k ideal nadir d WF) in H as (q & E & Lq & _). eauto.
Qed.
Print Assumptions C41_admissible_accepted_partial.

(** ** A session with IEEE doubles: data (1,1), (2,2), ideal (0,0), nadir (3,3) *)
Definition v1 : list F64 := [1; 1]%float.
Definition v2 : list F64 := [2; 2]%float.
Definition eO : list (list F64) := [v1; v2].
Definition eD : list (list F64) := [[10]; [20]]%float.
Definition eP : rp_problem F64 := RDisc eO eD.
Definition eI : list F64 := [0; 0]%float.
Definition eN : list F64 := [3; 3]%float.
Definition erho : F64 := 0x1.a36e2eb1c432dp-14%float. (* 0.0001 *)
Definition eeps : F64 := 0x1.0c6f7a0b5ed8dp-20%float. (* 1e-6 *)
Definition v5 : list F64 := [1; 5]%float.
Definition vnan : list F64 := [nan; nan].
Definition x20 : list F64 := [20]%float.
Definition e_go (v : list F64) : rp_dict F64 := MkRD (Some (RArr v)) None None.
Definition e_sat (z : Z) : rp_dict F64 := MkRD None (Some (VBool true)) (Some (VInt z)).
Definition e_it q d s := rp_iterate eP erho eeps eI eN q (Some d) s.
Definition e_s1 := fst (e_it RInit (e_go v1) rp_init).
Definition e_r1 : rp_request F64 := RReq v2 [v2; v2].

Lemma e_wf : rp_wf 2 eP eI eN.
Proof. split; [lia|]. split; [reflexivity|]. split; [reflexivity|]. split; [repeat constructor|]. split; [reflexivity|discriminate]. Qed.
Lemma e_step1 : e_it RInit (e_go v1) rp_init = (e_s1, Ok e_r1).
Proof. vm_cast_no_check (eq_refl (e_s1, @Ok (rp_request F64) e_r1)). Qed.
Lemma e_reach1 : rp_reach eP erho eeps eI eN e_s1 [e_r1; RInit].
Proof.
  apply (rp_reach_step eP erho eeps eI eN rp_init [RInit] RInit (Some (e_go v1)) e_s1 (Ok e_r1)); [apply rp_reach_init|left; reflexivity| |exact e_step1].
  intros d E. injection E as <-. vm_compute. reflexivity.
Qed.

(** The hypotheses of C38-C40 are met: an iteration, then the selection of each solution shown. *)
Example C38_C39_C40_hypotheses_met :
  rp_wf 2 eP eI eN /\ rp_no_index_errors eP /\
  rp_reach eP erho eeps eI eN rp_init [RInit] /\
  rp_validate eI eN RInit (e_go v1) = Ok tt /\ rp_continues RInit (e_go v1) v1 /\
  e_it RInit (e_go v1) rp_init = (e_s1, Ok e_r1) /\
  (forall z, (0 <= z <= 2)%Z -> rp_satisfied (e_sat z) = true /\ rp_validate eI eN e_r1 (e_sat z) = Ok tt) /\
  rp_continues e_r1 (e_go v1) v1.
Proof.
  split; [exact e_wf|]. split; [exact Logic.I|]. split; [apply rp_reach_init|]. split; [vm_compute; reflexivity|]. split; [split; [reflexivity|exact Logic.I]|].
  split; [exact e_step1|]. split; [|split; reflexivity]. intros z Hz. split; [reflexivity|]. assert (E : z = 0%Z \/ z = 1%Z \/ z = 2%Z) by lia.
  destruct E as [->|[->| ->]]; vm_compute; reflexivity.
Qed.

(** ** C41, refuted: a point worse than the nadir in one objective is accepted; a
    missing solution_index and a list instead of an array are not reported as
    RPMException. *)
Theorem C41_worse_accepted_refuted :
  rp_validate eI eN RInit (e_go v5) = Ok tt /\
  (exists i x y, nth_error eN i = Some x /\ nth_error v5 i = Some y /\ @nltb F64 x y = true) /\
  rp_validate eI eN e_r1 (MkRD None (Some (VBool true)) None) = Raise KeyErr /\
  rp_validate eI eN RInit (MkRD (Some RNoArr) None None) = Raise AttrErr.
Proof.
  split; [vm_compute; reflexivity|]. split; [|split; vm_compute; reflexivity].
  exists 1, (3%float : F64), (5%float : F64). split; [reflexivity|]. split; [reflexivity|]. vm_compute. reflexivity.
Qed.
Print Assumptions C41_worse_accepted_refuted.

(** ** C42: solutions that are not dominated *)
(** If no component of the reference point is positive, so that the weights
    [q / (utopian - nadir)] are not negative, no solution shown for it is
    dominated by a data row.  (The perturbed points use the same weights.) *)
Theorem C42_not_dominated_partial :
  forall objs decs rho eps ideal nadir s qs r d q s' f fs,
  0 < length nadir -> length ideal = length nadir -> Forall (fun row => length row = length nadir) objs ->
  length decs = length objs -> objs <> [] -> Forall2 (fun i n => i - eps < n)%R ideal nadir -> (0 < rho)%R ->
  let p : rp_problem XR := RDisc (xm objs) decs in
  rp_reach p (Fin rho) (Fin eps) (xv ideal) (xv nadir) s qs -> In r qs ->
  rp_validate (xv ideal) (xv nadir) r d = Ok tt -> rp_continues r d (xv q) -> Forall (fun y => y <= 0)%R q ->
  rp_iterate p (Fin rho) (Fin eps) (xv ideal) (xv nadir) r (Some d) s = (s', Ok (RReq f fs)) ->
  forall sol row, In sol (f :: fs) -> In row (xm objs) -> ~ dominates row sol.
Proof.
  intros objs decs rho eps ideal nadir s qs r d q s' f fs Hk Li HM Ld Hne Hlt Hrho p R Hin HV Hc Hq H sol row Hsol Hrow.
  assert (WF : rp_wf (length nadir) p (xv ideal) (xv nadir)) by (apply disc_wf; auto).
  assert (Lq : length q = length nadir).
  { destruct (inv_reach XR_ord p _ _ (length nadir) _ _ WF s qs R) as [I F]. rewrite Forall_forall in F. destruct Hc as [Hd Hc].
    destruct (continue_iter p _ _ (length nadir) _ _ WF s r d s' _ (F _ Hin) I HV H) as (v & s1 & Ev & Lv & _); [destruct r; auto|].
    assert (v = xv q) by congruence. subst v. rewrite xv_length in Lv. auto. }
  destruct (C38_solutions XR XR_ord p (Fin rho) (Fin eps) _ _ _ _ _ _ _ _ _ _ WF R Hin HV Hc H) as (f' & fs' & w & pqs & x & E & Lfs & Lf & Ew & S & P & G).
  injection E as <- <-. change (map (fun x : XR => nsub x (Fin eps)) (xv ideal)) with (rp_utopian (xv ideal) (Fin eps : XR)) in Ew, S, G. rewrite (ut_xr eps ideal) in Ew, S, G.
  destruct (w_xr objs decs eps ideal nadir Hk Li Ld Hlt q w Lq Ew) as (wr & -> & Lw & Wpos). specialize (Wpos Hq).
  assert (K : forall q' x' f', length q' = length nadir -> rp_solves p (Fin rho : XR) (xv wr) (xv nadir) (xv (map (fun x => x - eps)%R ideal)) (xv q') x' f' ->
    (exists fr, f' = xv fr /\ In fr objs) /\ forall g, In g (xm objs) -> ~ dominates g f').
  { intros q' x' f' Lq' (i & v & _ & Hf & Ev & _ & Hmin). rewrite xm_nth in Hf. destruct (nth_error objs i) as [fr|] eqn:Ei; [|discriminate]. cbn in Hf. injection Hf as <-.
    apply nth_error_In in Ei. split; [eauto|].
    eapply (least_not_dominated rho wr nadir (map (fun x => x - eps)%R ideal) q' objs fr v); eauto; [apply (den_pos eps ideal nadir Hlt)|rewrite map_length; auto]. }
  destruct (K q x f Lq S) as ((fr & -> & Hfr) & K1). destruct Hsol as [<-|Hsol]; [apply K1; auto|].
  assert (Lfr : length fr = length q) by (rewrite Forall_forall in HM; rewrite (HM _ Hfr); auto).
  unfold vsub in P. rewrite vsub_xr, vnorm_sub in P. apply perturbed_xr in P. subst pqs.
  destruct (In_nth_error _ _ Hsol) as (i & Ei). destruct (Forall2_nth_r _ _ _ _ _ G Ei) as (q' & Eq & x' & Sx).
  apply nth_error_In in Eq. apply in_map_iff in Eq as (q'' & <- & Eq). apply in_map_iff in Eq as (j & <- & _).
  refine (proj2 (K (rbump q (rdist q fr) j) x' sol _ Sx) row Hrow). rewrite rbump_length. auto.
Qed.
Print Assumptions C42_not_dominated_partial.

(** Refuted for the admissible reference point (1,1): both solutions shown are the dominated row. *)
Theorem C42_dominated_refuted :
  vle v1 eN /\ @vle F64 eI v1 /\
  e_it RInit (e_go v1) rp_init = (e_s1, Ok (RReq v2 [v2; v2])) /\
  exists row, In row eO /\ @dominates F64 row v2.
Proof.
  split; [repeat constructor|]. split; [repeat constructor|]. split; [exact e_step1|].
  exists v1. split; [left; reflexivity|]. split; [repeat constructor|]. intros H. inversion H as [|? ? ? ? Hx]. vm_compute in Hx. discriminate.
Qed.
Print Assumptions C42_dominated_refuted.

(** The hypotheses of C42_not_dominated_partial are met: reference point (-1, 0). *)
Definition gO : list (list R) := [[1; 0]; [0; 1]; [2; 2]]%R.
Definition gD : list (list XR) := [[]; []; []].
Definition gI : list R := [0; 0]%R.
Definition gN : list R := [2; 2]%R.
Definition gq : list R := [-1; 0]%R.
Definition gd : rp_dict XR := MkRD (Some (RArr (xv gq))) None None.
Example C42_hypotheses_met :
  Forall2 (fun i n => i - 1 < n)%R gI gN /\ Forall (fun y => y <= 0)%R gq /\
  rp_validate (xv gI) (xv gN) RInit gd = Ok tt /\ rp_continues RInit gd (xv gq) /\
  exists s' f fs, rp_iterate (RDisc (xm gO) gD) (Fin 1 : XR) (Fin 1) (xv gI) (xv gN) RInit (Some gd) rp_init = (s', Ok (RReq f fs)).
Proof.
  assert (Hlt : Forall2 (fun i n => i - 1 < n)%R gI gN) by (repeat constructor; lra).
  assert (HM : Forall (fun row : list R => length row = length gN) gO) by (repeat constructor).
  assert (WF : rp_wf 2 (RDisc (xm gO) gD) (xv gI) (xv gN)) by (apply (disc_wf gO gD gI gN); [cbn; lia|reflexivity|exact HM|reflexivity|discriminate]).
  assert (HV : rp_validate (xv gI) (xv gN) RInit gd = Ok tt).
  { refine (proj1 (C41_admissible_accepted_partial XR XR_ord (RDisc (xm gO) gD) 2 (xv gI) (xv gN) gd WF) (xv gq) eq_refl _). apply xvle_iff. repeat constructor; lra. }
  split; [exact Hlt|]. split; [repeat constructor; lra|]. split; [exact HV|]. split; [split; [reflexivity|exact Logic.I]|].
  destruct (rp_iterate (RDisc (xm gO) gD) (Fin 1 : XR) (Fin 1) (xv gI) (xv gN) RInit (Some gd) rp_init) as [s' out] eqn:E.
  assert (R0 : rp_reach (RDisc (xm gO) gD) (Fin 1 : XR) (Fin 1) (xv gI) (xv gN) rp_init [RInit]) by apply rp_reach_init.
  assert (HI : In (@RInit XR) [RInit]) by (left; reflexivity).
  assert (HC : rp_continues RInit gd (xv gq)) by (split; [reflexivity|exact Logic.I]).
  destruct (C39_discrete_never_fails gO gD 1 1 gI gN rp_init [RInit] RInit gd gq s' out) as (r' & ->); [cbn; lia|reflexivity|exact HM|reflexivity|discriminate|exact Hlt|exact R0|exact HI|exact HV|exact HC|exact E|].
  destruct (C38_solutions XR XR_ord (RDisc (xm gO) gD) (Fin 1) (Fin 1) 2 (xv gI) (xv gN) rp_init [RInit] RInit gd (xv gq) s' r' WF R0 HI HV HC E) as (f & fs & _ & _ & _ & -> & _); eauto.
Qed.

(** ** C66: after an iteration that fails *)
(** Refuted: NaN as a reference point is accepted and the iteration fails; the
    solutions shown before can no longer be chosen: "satisfied" with index 0 on
    the request on the table gives a stop request with no solution. *)
Theorem C66_failed_iteration_refuted :
  let bad := e_go vnan in
  exists s2, rp_validate eI eN e_r1 bad = Ok tt /\ e_it e_r1 bad e_s1 = (s2, Raise ValueErr) /\
    e_it e_r1 (e_sat 0) e_s1 = (e_s1, Ok (RStop (Some x20) (Some v2))) /\
    e_it e_r1 (e_sat 0) s2 = (s2, Ok (RStop None None)) /\
    e_it e_r1 (e_sat 1) s2 = (s2, Raise TypeErr).
Proof.
  intros bad. exists (fst (e_it e_r1 bad e_s1)). split; [vm_compute; reflexivity|].
  split; [vm_cast_no_check (eq_refl (fst (e_it e_r1 bad e_s1), @Raise (rp_request F64) ValueErr))|].
  split; [vm_cast_no_check (eq_refl (e_s1, @Ok (rp_request F64) (RStop (Some x20) (Some v2))))|].
  split; [vm_cast_no_check (eq_refl (fst (e_it e_r1 bad e_s1), @Ok (rp_request F64) (RStop None None)))|].
  vm_cast_no_check (eq_refl (fst (e_it e_r1 bad e_s1), @Raise (rp_request F64) TypeErr)).
Qed.
Print Assumptions C66_failed_iteration_refuted.

(** ** C104: the result depends on the reference point alone *)
(** After any two histories of the same method (with failing iterations or without,
    one of them a new object if one likes), answering with the same reference point
    gives the same result or the same exception, and so do all later answers to the
    newest request. *)
Theorem C104_same_reference_point :
  forall (N : NumOps) (L : OrdLaws N) (p : rp_problem N) rho eps k ideal nadir s1 qs1 s2 qs2 r1 r2 d1 d2 q ds,
  rp_wf k p ideal nadir ->
  rp_reach p rho eps ideal nadir s1 qs1 -> In r1 qs1 -> rp_reach p rho eps ideal nadir s2 qs2 -> In r2 qs2 ->
  rp_validate ideal nadir r1 d1 = Ok tt -> rp_validate ideal nadir r2 d2 = Ok tt ->
  rp_continues r1 d1 q -> rp_continues r2 d2 q ->
  rp_play p rho eps ideal nadir r1 (d1 :: ds) s1 = rp_play p rho eps ideal nadir r2 (d2 :: ds) s2.
Proof.
  intros N L p rho eps k ideal nadir s1 qs1 s2 qs2 r1 r2 d1 d2 q ds WF R1 H1 R2 H2 V1 V2 C1 C2.
  destruct (inv_reach L p rho eps k ideal nadir WF _ _ R1) as [I1 F1]. destruct (inv_reach L p rho eps k ideal nadir WF _ _ R2) as [I2 F2].
  rewrite Forall_forall in F1, F2. specialize (F1 _ H1). specialize (F2 _ H2). clear R1 R2 H1 H2.
  (* after the first round the two objects agree on what they hold of the current iteration *)
  assert (G : forall ds r t1 t2, rp_inv p k t1 -> rp_inv p k t2 -> cur t1 = cur t2 -> req_ok p k r -> r <> RInit ->
    rp_play p rho eps ideal nadir r ds t1 = rp_play p rho eps ideal nadir r ds t2).
  { clear - L WF. induction ds as [|d ds IH]; intros r t1 t2 I1 I2 C Q NI; [reflexivity|]. cbn [rp_play].
    destruct (rp_validate ideal nadir r d) as [[]|e] eqn:V; [|reflexivity].
    destruct r as [|f fs|x f]; [congruence| |].
    - destruct (rp_satisfied d) eqn:S.
      + destruct (same_satisfied p rho eps ideal nadir t1 t2 f fs d S C) as (out & E1 & E2). rewrite E1, E2. f_equal.
        destruct out as [r'|]; [|reflexivity]. destruct Q as [Lf Q].
        destruct (satisfied_spec p rho eps k ideal nadir t1 f fs d t1 (Ok r') I1 Lf S V) as (_ & [D|(q' & D & Q')] & _); [exact E1|discriminate|].
        injection D as D. subst q'. destruct r' as [|f' fs'|x' f'].
        * exfalso. clear - E1 S. cbn [rp_iterate rp_resp] in E1. unfold sbind, lift, rp_handle in E1. rewrite S in E1. unfold sbind, lift, sget, sret in E1.
          repeat match type of E1 with context [match ?x with _ => _ end] => destruct x end; discriminate E1.
        * apply IH; auto; discriminate.
        * apply IH; auto; discriminate.
      + cbn [rp_validate] in V. rewrite S in V. destruct (rd_ref d) as [a|] eqn:Ea; [|discriminate].
        pose proof V as V'. apply (validate_ref_iff p k ideal nadir WF) in V' as (v & -> & Lv & _).
        assert (HV : rp_validate ideal nadir (RReq f fs) d = Ok tt) by (cbn [rp_validate]; rewrite S, Ea; exact V).
        assert (HC : rp_continues (RReq f fs) d v) by (split; auto).
        destruct (same_round L p rho eps k ideal nadir WF t1 t2 _ _ d d v I1 I2 Q Q HV HV HC HC) as (t1' & t2' & out & E1 & E2 & J1 & J2 & K).
        rewrite E1, E2. f_equal. destruct out as [r'|]; [|reflexivity]. destruct (K r' eq_refl) as (K1 & K2 & f' & fs' & ->). apply IH; auto. discriminate.
    - cbn [rp_iterate]. unfold sret. f_equal. apply IH; auto. }
  cbn [rp_play]. rewrite V1, V2.
  destruct (same_round L p rho eps k ideal nadir WF s1 s2 r1 r2 d1 d2 q I1 I2 F1 F2 V1 V2 C1 C2) as (t1 & t2 & out & E1 & E2 & J1 & J2 & K).
  rewrite E1, E2. f_equal. destruct out as [r'|]; [|reflexivity]. destruct (K r' eq_refl) as (K1 & K2 & f' & fs' & ->). apply G; auto. discriminate.
Qed.
Print Assumptions C104_same_reference_point.

(** C66, what does hold: nothing but the choice is lost.  After an iteration that raised,
    answering with another reference point gives what it would have given without the
    failed iteration, and so do all later answers. *)
Theorem C66_continues_unharmed_partial :
  forall (N : NumOps) (L : OrdLaws N) (p : rp_problem N) rho eps k ideal nadir s qs rf df e s' r d q ds,
  rp_wf k p ideal nadir -> rp_reach p rho eps ideal nadir s qs -> In rf qs ->
  (forall d, df = Some d -> rp_validate ideal nadir rf d = Ok tt) ->
  rp_iterate p rho eps ideal nadir rf df s = (s', Raise e) ->
  In r qs -> rp_validate ideal nadir r d = Ok tt -> rp_continues r d q ->
  rp_play p rho eps ideal nadir r (d :: ds) s' = rp_play p rho eps ideal nadir r (d :: ds) s.
Proof.
  intros N L p rho eps k ideal nadir s qs rf df e s' r d q ds WF R Hf Vf E Hr V C.
  pose proof (rp_reach_step p rho eps ideal nadir s qs rf df s' (Raise e) R Hf Vf E) as R'. cbn iota in R'.
  exact (C104_same_reference_point N L p rho eps k ideal nadir s' qs s qs r r d d q ds WF R' Hr R Hr V V C C).
Qed.
Print Assumptions C66_continues_unharmed_partial.
(** After the failed iteration of [C66_failed_iteration_refuted] the session goes on: the
    same reference point as on the new object, then the choice of solution 0. *)
Definition e_s2 := fst (e_it e_r1 (e_go vnan) e_s1).
Example C66_C104_hypotheses_met :
  rp_wf 2 eP eI eN /\ rp_reach eP erho eeps eI eN e_s2 [e_r1; RInit] /\ rp_reach eP erho eeps eI eN rp_init [RInit] /\
  rp_validate eI eN e_r1 (e_go v1) = Ok tt /\ rp_validate eI eN RInit (e_go v1) = Ok tt /\
  rp_continues e_r1 (e_go v1) v1 /\ rp_continues RInit (e_go v1) v1 /\
  rp_play eP erho eeps eI eN e_r1 [e_go v1; e_sat 0] e_s2 = [Ok e_r1; Ok (RStop (Some x20) (Some v2))].
Proof.
  split; [exact e_wf|]. split.
  { apply (rp_reach_step eP erho eeps eI eN e_s1 [e_r1; RInit] e_r1 (Some (e_go vnan)) e_s2 (Raise ValueErr)); [exact e_reach1|left; reflexivity| |].
    - intros d E. injection E as <-. vm_compute. reflexivity.
    - vm_cast_no_check (eq_refl (e_s2, @Raise (rp_request F64) ValueErr)). }
  split; [constructor|]. split; [vm_compute; reflexivity|]. split; [vm_compute; reflexivity|].
  split; [split; reflexivity|]. split; [split; [reflexivity|exact I]|].
  vm_cast_no_check (eq_refl [@Ok (rp_request F64) e_r1; Ok (RStop (Some x20) (Some v2))]).
Qed.
