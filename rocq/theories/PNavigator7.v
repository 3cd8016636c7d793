(** * NAUTILUS Navigator: counterexamples with IEEE doubles. *)
From Coq Require Import ZArith List Bool Lia Floats.
From Verif Require Import Num NumF64 Py Np Spec NpFacts MNavigator SNavigator PENautilus PNavigator PNavigator2 PNavigator3 PNavigator4 PNavigator6.
Import ListNotations.

Section Play.
  Context {N : NumOps}.
  Implicit Types (asf : @asf_fn N).
  (** Answer request number [i] (0 is the latest) with [d]. *)
  Definition play1 asf (st : nv_state N * list (nv_request N)) (i : nat) (d : nv_dict N) : option (nv_state N * list (nv_request N)) :=
    match nth_error (snd st) i with
    | Some (NReq c) =>
        if is_ok (nv_validate c d) then
          match nv_iterate asf (NReq c) (Some d) (fst st) with
          | (s', Ok q) => Some (s', q :: snd st)
          | _ => None
          end
        else None
    | _ => None
    end.
  Fixpoint play asf st (script : list (nat * nv_dict N)) :=
    match script with
    | [] => Some st
    | (i, d) :: script' => match play1 asf st i d with Some st' => play asf st' script' | None => None end
    end.
  Lemma play1_inv asf s qs i d st' : play1 asf (s, qs) i d = Some st' ->
    exists c s' q, nth_error qs i = Some (NReq c) /\ nv_validate c d = Ok tt /\ nv_iterate asf (NReq c) (Some d) s = (s', Ok q) /\ st' = (s', q :: qs).
  Proof.
    unfold play1. cbn [fst snd]. destruct (nth_error qs i) as [[c|? ? ?]|]; try discriminate.
    destruct (nv_validate c d) as [[]|] eqn:E; [|discriminate]. cbn [is_ok].
    destruct (nv_iterate asf (NReq c) (Some d) s) as [s' [q|]] eqn:E2; [|discriminate].
    intros H. injection H as <-. exists c, s', q. auto.
  Qed.
  Lemma play_reach asf front ideal nadir vars script : forall s qs s' qs',
    nv_reach asf front ideal nadir vars s qs -> play asf (s, qs) script = Some (s', qs') -> nv_reach asf front ideal nadir vars s' qs'.
  Proof.
    induction script as [|[i d] script IH]; intros s qs s' qs' H E; cbn [play] in E.
    - injection E as <- <-. auto.
    - destruct (play1 asf (s, qs) i d) as [st'|] eqn:E1; [|discriminate].
      apply play1_inv in E1. destruct E1 as (c & s1 & q & Hn & Hv & Hi & ->).
      eapply IH; [|exact E]. apply (nv_reach_step _ _ _ _ _ _ _ _ _ _ _ H (nth_error_In _ _ Hn) Hv Hi).
  Qed.
  Definition init_st front ideal nadir vars : nv_state N * list (nv_request N) :=
    (nv_init front ideal nadir vars, [nv_start (nv_init front ideal nadir vars)]).
  (** Views of a run, over any front, so that concrete runs stay folded. *)
  Lemma play1_reach asf front ideal nadir vars s qs i d s' c' qs' :
    nv_reach asf front ideal nadir vars s qs -> play1 asf (s, qs) i d = Some (s', NReq c' :: qs') ->
    exists c, nth_error qs i = Some (NReq c) /\ nv_validate c d = Ok tt /\ nv_iterate asf (NReq c) (Some d) s = (s', Ok (NReq c')) /\
              nv_reach asf front ideal nadir vars s' (NReq c' :: qs).
  Proof.
    intros H E. apply play1_inv in E. destruct E as (c & s1 & q & Hn & Hv & Hi & E). injection E as <- <- ->. 
    exists c. repeat split; auto. apply (nv_reach_step _ _ _ _ _ _ _ _ _ _ _ H (nth_error_In _ _ Hn) Hv Hi).
  Qed.
  Lemma init_reach asf front ideal nadir vars st :
    st = init_st front ideal nadir vars -> nv_reach asf front ideal nadir vars (fst st) (snd st).
  Proof. intros ->. constructor. Qed.
End Play.

Definition fans (a b : float) (speed : Z) (prev : bool) (ub : list (option F64)) : nv_dict F64 :=
  MkND (N:=F64) (Some [a; b]) (Some (VInt speed)) (Some (VBool prev)) (Some ub) (Some (VBool false)).
Definition none2 : list (option F64) := [None; None].

(** ** User bounds are used one answer late *)
Definition bF : list (list F64) := [[0; 2]; [2; 0]]%float.
Definition bid : list F64 := [0; 0]%float.
Definition bnd : list F64 := [2; 2]%float.
Definition bub : list (option F64) := [Some 1%float; None].
Definition bans := fans 2 0 1 false bub.
Definition chk_bounds (r : option (nv_state F64 * list (nv_request F64))) : bool :=
  match r with
  | Some (s', NReq c' :: _) =>
      match ns_proj s' with Some p => Nat.eqb p 1 | None => false end &&
      existsb (Nat.eqb 0) (idx_list (nc_idx c'))
  | _ => false
  end.
Lemma chk_bounds_ok : chk_bounds (play1 pm_asf (init_st bF bid bnd None) 0 bans) = true.
Proof. vm_compute. reflexivity. Qed.

Lemma chk_bounds_inv asf front ideal nadir vars st d :
  st = init_st front ideal nadir vars -> chk_bounds (play1 asf st 0 d) = true ->
  exists c s' c', nv_reach (N:=F64) asf front ideal nadir vars (nv_init front ideal nadir vars) (snd st) /\ In (NReq c) (snd st) /\ nv_validate c d = Ok tt /\
    nv_iterate asf (NReq c) (Some d) (nv_init front ideal nadir vars) = (s', Ok (NReq c')) /\ ns_proj s' = Some 1 /\ In 0 (idx_list (nc_idx c')).
Proof.
  intros Hst H. pose proof (init_reach asf _ _ _ _ _ Hst) as Hr.
  assert (fst st = nv_init front ideal nadir vars) as Hf by (rewrite Hst; reflexivity).
  destruct st as [s qs]. cbn [fst snd] in *. clear Hst. subst s.
  destruct (play1 asf (nv_init front ideal nadir vars, qs) 0 d) as [[s' [|q qs']]|] eqn:E; try discriminate H.
  unfold chk_bounds in H. destruct q as [c'|]; [|discriminate H].
  destruct (play1_reach _ _ _ _ _ _ _ _ _ _ _ _ Hr E) as (c & Hn & Hv & Hi & Hr').
  destruct (ns_proj s') as [p|] eqn:Ep; [|discriminate H].
  apply andb_true_iff in H. destruct H as [H1 H2]. apply Nat.eqb_eq in H1. subst p.
  apply existsb_exists in H2. destruct H2 as (j & Hj & Hj'). apply Nat.eqb_eq in Hj'. subst j.
  exists c, s', c'. split; [exact Hr|]. split; [eapply nth_error_In; exact Hn|]. auto.
Qed.

Lemma bounds_late_refuted :
  exists s qs c s' c' p row i row',
    nv_reach (N:=F64) pm_asf bF bid bnd None s qs /\ In (NReq c) qs /\ nv_validate c bans = Ok tt /\
    nv_iterate pm_asf (NReq c) (Some bans) s = (s', Ok (NReq c')) /\
    ns_proj s' = Some p /\ nth_error bF p = Some row /\ exceeds row (to_floats bub) /\
    In i (idx_list (ns_idx s)) /\ In i (idx_list (nc_idx c')) /\ nth_error bF i = Some row' /\ ~ exceeds row' (to_floats bub).
Proof.
  destruct (chk_bounds_inv pm_asf bF bid bnd None _ bans eq_refl chk_bounds_ok) as (c & s' & c' & Hr & Hc & Hv & Hi & Hp & Hj).
  exists (nv_init bF bid bnd None), (snd (init_st bF bid bnd None)), c, s', c', 1, ([2; 0]%float : list F64), 0, ([0; 2]%float : list F64).
  split; [exact Hr|]. split; [exact Hc|]. split; [exact Hv|]. split; [exact Hi|]. split; [exact Hp|]. split; [reflexivity|].
  split; [apply any_gt_iff; vm_compute; reflexivity|]. split; [left; reflexivity|]. split; [exact Hj|]. split; [reflexivity|].
  apply any_gt_false. vm_compute. reflexivity.
Qed.

(** ** The speed shown is the first one *)
Definition chk_speed (r : option (nv_state F64 * list (nv_request F64))) : bool :=
  match r with
  | Some (s', NReq c' :: _) => match nc_speed c' with Some (VInt z) => Z.eqb z 1 | _ => false end
  | _ => false
  end.
Definition run1 := play pm_asf (init_st bF bid bnd None) [(0, fans 2 0 1 false none2)].
Definition chk_speed2 : bool :=
  match run1 with Some st => chk_speed (play1 pm_asf st 0 (fans 2 0 5 false none2)) | None => false end.
Lemma chk_speed2_ok : chk_speed2 = true.
Proof. vm_compute. reflexivity. Qed.
Lemma chk_speed_inv asf front ideal nadir vars st script d :
  st = init_st front ideal nadir vars ->
  match play asf st script with Some st => chk_speed (play1 asf st 0 d) | None => false end = true ->
  exists s qs c s' c',
    nv_reach (N:=F64) asf front ideal nadir vars s qs /\ In (NReq c) qs /\ nv_validate c d = Ok tt /\
    nv_iterate asf (NReq c) (Some d) s = (s', Ok (NReq c')) /\ nc_speed c' = Some (VInt 1).
Proof.
  intros Hst H. pose proof (init_reach asf _ _ _ _ _ Hst) as Hr. clear Hst. destruct st as [s0 qs0]. cbn [fst snd] in Hr.
  destruct (play asf (s0, qs0) script) as [[s qs]|] eqn:E1; [|discriminate H].
  pose proof (play_reach _ _ _ _ _ _ _ _ _ _ Hr E1) as Hr1.
  destruct (play1 asf (s, qs) 0 d) as [[s' [|q qs']]|] eqn:E; try discriminate H.
  unfold chk_speed in H. destruct q as [c'|]; [|discriminate H].
  destruct (play1_reach _ _ _ _ _ _ _ _ _ _ _ _ Hr1 E) as (c & Hn & Hv & Hi & Hr').
  destruct (nc_speed c') as [[| |z| | |]|] eqn:Es; try discriminate H. apply Z.eqb_eq in H. subst z.
  exists s, qs, c, s', c'. split; [exact Hr1|]. split; [eapply nth_error_In; exact Hn|]. auto.
Qed.
Lemma speed_refuted :
  exists s qs c s' c',
    nv_reach (N:=F64) pm_asf bF bid bnd None s qs /\ In (NReq c) qs /\ nv_validate c (fans 2 0 5 false none2) = Ok tt /\
    nv_iterate pm_asf (NReq c) (Some (fans 2 0 5 false none2)) s = (s', Ok (NReq c')) /\ nc_speed c' = Some (VInt 1).
Proof. exact (chk_speed_inv pm_asf bF bid bnd None _ [(0, fans 2 0 1 false none2)] _ eq_refl chk_speed2_ok). Qed.

(** ** Going back does not forget the last projection *)
Definition gF : list (list F64) := [[0; 3]; [1; 1]; [3; 0]]%float.
Definition gid : list F64 := [0; 0]%float.
Definition gnd : list F64 := [4; 4]%float.
Definition gA := fans 0 3 1 false none2.
Definition gA' := fans 0 3 1 false bub.
Definition gB := fans 3 0 1 false none2.
Definition gback := fans 3 0 1 true none2.
Definition feq_vec (a b : list F64) : bool := Nat.eqb (length a) (length b) && forallb (fun x => x) (zipw neqb a b).
Definition nav_of (r : option (nv_state F64 * list (nv_request F64))) : option (list F64) :=
  match r with Some (_, NReq c :: _) => Some (nc_nav c) | _ => None end.
Definition chk_back (asf : asf_fn) (st0 : option (nv_state F64 * list (nv_request F64))) (dB dA' dback : nv_dict F64) : bool :=
  match st0 with
  | Some st =>
      match play1 asf st 0 dB, play1 asf st 0 dA' with
      | Some (_, NReq c1 :: _), Some (sa, NReq ca :: qsa) =>
        match play1 asf (sa, NReq ca :: qsa) 0 dB with
        | Some (s2, NReq cb :: qsb) =>
          match play1 asf (s2, NReq cb :: qsb) 2 dback with
          | Some (s3, NReq cr :: qs3) =>
              match play1 asf (s3, NReq cr :: qs3) 0 dB with
              | Some (_, NReq c2 :: _) => feq_vec (nc_nav c1) (nc_nav c1) && negb (feq_vec (nc_nav c1) (nc_nav c2))
              | _ => false
              end
          | _ => false
          end
        | _ => false
        end
      | _, _ => false
      end
  | None => false
  end.
Lemma chk_back_ok : chk_back pm_asf (play pm_asf (init_st gF gid gnd None) [(0, gA)]) gB gA' gback = true.
Proof. vm_compute. reflexivity. Qed.


Lemma chk_back_inv asf front ideal nadir vars st script dB dA' dback :
  st = init_st front ideal nadir vars -> chk_back asf (play asf st script) dB dA' dback = true ->
  exists s qs c c1 s1' sa ca s2 cb s3 cr s4 c2,
    nv_reach (N:=F64) asf front ideal nadir vars s qs /\ nth_error qs 0 = Some (NReq c) /\
    nv_validate c dB = Ok tt /\ nv_iterate asf (NReq c) (Some dB) s = (s1', Ok (NReq c1)) /\
    nv_validate c dA' = Ok tt /\ nv_iterate asf (NReq c) (Some dA') s = (sa, Ok (NReq ca)) /\
    nv_validate ca dB = Ok tt /\ nv_iterate asf (NReq ca) (Some dB) sa = (s2, Ok (NReq cb)) /\
    nv_validate c dback = Ok tt /\ nv_iterate asf (NReq c) (Some dback) s2 = (s3, Ok (NReq cr)) /\
    nv_validate cr dB = Ok tt /\ nv_iterate asf (NReq cr) (Some dB) s3 = (s4, Ok (NReq c2)) /\
    nc_nav c1 <> nc_nav c2.
Proof.
  intros Hst H. pose proof (init_reach asf _ _ _ _ _ Hst) as Hr0. clear Hst. destruct st as [s0 qs0]. cbn [fst snd] in Hr0.
  destruct (play asf (s0, qs0) script) as [[s qs]|] eqn:E0; [|discriminate H].
  pose proof (play_reach _ _ _ _ _ _ _ _ _ _ Hr0 E0) as Hr.
  unfold chk_back in H.
  destruct (play1 asf (s, qs) 0 dB) as [[s1' [|[c1|] q1]]|] eqn:E1; try discriminate H.
  destruct (play1 asf (s, qs) 0 dA') as [[sa [|[ca|] qsa]]|] eqn:E2; try discriminate H.
  destruct (play1 asf (sa, NReq ca :: qsa) 0 dB) as [[s2 [|[cb|] qsb]]|] eqn:E3; try discriminate H.
  destruct (play1 asf (s2, NReq cb :: qsb) 2 dback) as [[s3 [|[cr|] qs3]]|] eqn:E4; try discriminate H.
  destruct (play1 asf (s3, NReq cr :: qs3) 0 dB) as [[s4 [|[c2|] qs4]]|] eqn:E5; try discriminate H.
  apply andb_true_iff in H. destruct H as [H1 H2]. apply negb_true_iff in H2.
  apply play1_inv in E1. destruct E1 as (c & x1 & y1 & A1 & B1 & C1 & D1). injection D1 as <- <- ->.
  apply play1_inv in E2. destruct E2 as (c' & x2 & y2 & A2 & B2 & C2 & D2). injection D2 as <- <- ->.
  rewrite A1 in A2. injection A2 as <-.
  apply play1_inv in E3. destruct E3 as (c' & x3 & y3 & A3 & B3 & C3 & D3). injection D3 as <- <- ->. cbn [nth_error] in A3. injection A3 as <-.
  apply play1_inv in E4. destruct E4 as (c' & x4 & y4 & A4 & B4 & C4 & D4). injection D4 as <- <- ->. cbn [nth_error] in A4. cbn [nth_error] in A1. rewrite A1 in A4. injection A4 as <-.
  apply play1_inv in E5. destruct E5 as (c' & x5 & y5 & A5 & B5 & C5 & D5). injection D5 as <- <- ->. cbn [nth_error] in A5. injection A5 as <-.
  exists s, qs, c, c1, s1', sa, ca, s2, cb, s3, cr, s4, c2.
  split; [exact Hr|]. split; [exact A1|]. repeat (split; [assumption|]). intros E. rewrite <- E in H2. congruence.
Qed.
Lemma back_refuted : exists s qs c c1 s1' sa ca s2 cb s3 cr s4 c2,
    nv_reach (N:=F64) pm_asf gF gid gnd None s qs /\ nth_error qs 0 = Some (NReq c) /\
    nv_validate c gB = Ok tt /\ nv_iterate pm_asf (NReq c) (Some gB) s = (s1', Ok (NReq c1)) /\
    nv_validate c gA' = Ok tt /\ nv_iterate pm_asf (NReq c) (Some gA') s = (sa, Ok (NReq ca)) /\
    nv_validate ca gB = Ok tt /\ nv_iterate pm_asf (NReq ca) (Some gB) sa = (s2, Ok (NReq cb)) /\
    nv_validate c gback = Ok tt /\ nv_iterate pm_asf (NReq c) (Some gback) s2 = (s3, Ok (NReq cr)) /\
    nv_validate cr gB = Ok tt /\ nv_iterate pm_asf (NReq cr) (Some gB) s3 = (s4, Ok (NReq c2)) /\
    nc_nav c1 <> nc_nav c2.
Proof. exact (chk_back_inv pm_asf gF gid gnd None (init_st gF gid gnd None) [(0, gA)] gB gA' gback eq_refl chk_back_ok). Qed.

(** ** Responses outside the documented ones that the validator accepts *)
Definition vcont : nv_content F64 :=
  MkNC (N:=F64) bid bnd bid bnd [nan; nan]%float (IList [0; 1]) 1 100 0%float None bnd.
Definition vresp (ref : list float) (speed : pyval F64) (prev stop : pyval F64) : nv_dict F64 :=
  MkND (N:=F64) (Some ref) (Some speed) (Some prev) (Some none2) (Some stop).
Definition okb (r : res unit) : bool := match r with Ok tt => true | _ => false end.
Lemma okb_ok r : okb r = true -> r = Ok tt.
Proof. destruct r as [[]|]; [auto|discriminate]. Qed.
Definition tyb (r : res unit) : bool := match r with Raise TypeErr => true | _ => false end.
Lemma tyb_ok r : tyb r = true -> r = Raise TypeErr.
Proof. destruct r as [[]|[]]; try discriminate; auto. Qed.
Lemma validate_nan : nv_validate vcont (vresp [nan; 1]%float (VInt 3) (VBool false) (VBool false)) = Ok tt.
Proof. apply okb_ok. vm_compute. reflexivity. Qed.
Lemma validate_short : nv_validate vcont (vresp [1]%float (VInt 3) (VBool false) (VBool false)) = Ok tt.
Proof. apply okb_ok. vm_compute. reflexivity. Qed.
Lemma validate_speed_float : nv_validate vcont (vresp [1; 1]%float (VFloat (N:=F64) 5.5%float (Some 5%Z)) (VBool false) (VBool false)) = Ok tt.
Proof. apply okb_ok. vm_compute. reflexivity. Qed.
Lemma validate_speed_str : nv_validate vcont (vresp [1; 1]%float (VStr (Some 3%Z)) (VBool false) (VBool false)) = Ok tt.
Proof. apply okb_ok. vm_compute. reflexivity. Qed.
Lemma validate_flag : nv_validate vcont (vresp [1; 1]%float (VInt 3) (VInt 1) (VBool false)) = Raise TypeErr.
Proof. apply tyb_ok. vm_compute. reflexivity. Qed.
