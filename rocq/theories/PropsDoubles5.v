(** * NAUTILUS Navigator: two-objective reachability in any arithmetic, and with doubles (C28). *)
From Coq Require Import ZArith List Bool Lia Floats.
From Verif Require Import Num NumF64 F64Sums SFloat Py Np Spec NpFacts MNavigator SNavigator SENautilus SNavAny PENautilus
  PNavigator PNavigator2 PNavigator3 PNavigator5 PNavigator6 PNavigator7 PNavigator10 PENautilus7 PropsDoubles4.
Import ListNotations.

(** ** C28: in any arithmetic, as long as rounding does no harm *)
Theorem C28_any_arithmetic :
  forall (N : NumOps) (L : OrdLaws N) (asf : @asf_fn N) (F : list (list N)) (ideal nd : list N) vars,
  setup 2 F ideal nd vars -> F <> [] -> enclosed F ideal nd -> mutually_nondominated F ->
  forall s c, plain_session asf F ideal nd vars s c ->
  (* the reachable rows are those below the navigation point *)
  (forall i row, nth_error F i = Some row -> (In i (idx_list (nc_idx c)) <-> vle row (nc_nav c))) /\
  (* the projection is one of them *)
  (match ns_proj s with Some p => In p (idx_list (nc_idx c)) | None => s = nv_init F ideal nd vars end) /\
  (* and no further such answer can fail *)
  (forall d, nv_validate c d = Ok tt -> plain_answer asf F ideal nd d ->
     exists s' c', nv_iterate asf (NReq c) (Some d) s = (s', Ok (NReq c'))).
Proof.
  intros N L asf F ideal nd vars Hs Hne He Hm s c H.
  destruct (plain_session_inv L asf F ideal nd vars s c Hs He Hm H) as [(ds & H0) I1 I2 _ _].
  destruct (session_reach L _ _ _ _ _ _ _ _ _ Hs H0) as (Hq & _). unfold nv_request_of in Hq.
  assert (Ec : nc_idx c = ns_idx s /\ nc_nav c = ns_nav s) by (injection Hq as <-; auto). destruct Ec as [E1 E2].
  rewrite E1, E2. split; [exact I1|]. split; [exact I2|]. intros d Hv Hd. eapply (plain_never_fails L); eauto.
Qed.
Print Assumptions C28_any_arithmetic.

(** ** C28: with doubles, rounding does no harm to a step when the rows below the navigation
    point are clearly below it (SENautilus.rounding_safe). *)
Theorem C28_doubles :
  forall (asf : @asf_fn F64) (F : list (list F64)) (ideal nd : list F64) vars s c d s' c',
  Forall (fin_below 1020) F -> plain_session asf F ideal nd vars s c ->
  fin_below 1020 (nc_nav c) -> (1 <= nc_left c <= 100)%Z -> (forall z, In z F -> vle z (nc_nav c) -> rounding_safe (nc_left c) z (nc_nav c)) ->
  nv_validate c d = Ok tt -> plain_answer asf F ideal nd d -> nv_iterate asf (NReq c) (Some d) s = (s', Ok (NReq c')) ->
  plain_session asf F ideal nd vars s' c'.
Proof.
  intros asf F ideal nd vars s c d s' c' HF H Hn Hl Hsafe Hv Hd Hit.
  eapply plain_step; eauto. apply safe_stays; auto. split; [apply Hl|]. apply Z.le_trans with 100%Z; [apply Hl|discriminate].
Qed.
Print Assumptions C28_doubles.

(** ** Concrete sessions *)
Section Plain.
  Context {N : NumOps}.
  Variables (asf : @asf_fn N) (F : list (list N)) (ideal nd : list N) (vars : option (list (list N))) (ok : nv_content N -> bool).
  (** Answer the latest request with [d] [n] times, if [ok] holds of each request answered. *)
  Fixpoint steps (n : nat) (d : nv_dict N) (s : nv_state N) (c : nv_content N) : option (nv_state N * nv_content N) :=
    match n with
    | 0 => Some (s, c)
    | S n' => if is_ok (nv_validate c d) && ok c
              then match nv_iterate asf (NReq c) (Some d) s with (s', Ok (NReq c')) => steps n' d s' c' | _ => None end
              else None
    end.
  Lemma steps_session n d : forall ds s c s' c', nv_session asf F ideal nd vars ds s c -> steps n d s c = Some (s', c') ->
    nv_session asf F ideal nd vars (ds ++ repeat d n) s' c'.
  Proof.
    induction n as [|n IH]; intros ds s c s' c' H E; cbn [steps repeat] in *.
    - injection E as <- <-. rewrite app_nil_r. auto.
    - destruct (nv_validate c d) as [[]|] eqn:Ev; [|discriminate]. cbn [is_ok] in E. destruct (ok c); [|discriminate]. cbn [andb] in E.
      destruct (nv_iterate asf (NReq c) (Some d) s) as [s1 [[c1|]|]] eqn:Ei; try discriminate.
      replace (ds ++ d :: repeat d n) with ((ds ++ [d]) ++ repeat d n) by (rewrite <- app_assoc; reflexivity).
      apply (IH _ s1 c1); auto. econstructor; eauto.
  Qed.
  Lemma steps_plain n d : plain_answer asf F ideal nd d -> (forall c, ok c = true -> stays_between F (nc_left c) (nc_nav c)) ->
    forall s c s' c', plain_session asf F ideal nd vars s c -> steps n d s c = Some (s', c') -> plain_session asf F ideal nd vars s' c'.
  Proof.
    intros Hd Hok. induction n as [|n IH]; intros s c s' c' H E; cbn [steps] in *.
    - injection E as <- <-. auto.
    - destruct (nv_validate c d) as [[]|] eqn:Ev; [|discriminate]. cbn [is_ok] in E. destruct (ok c) eqn:Eo; [|discriminate]. cbn [andb] in E.
      destruct (nv_iterate asf (NReq c) (Some d) s) as [s1 [[c1|]|]] eqn:Ei; try discriminate.
      apply (IH s1 c1); auto. econstructor; eauto.
  Qed.
End Plain.

Definition start_content {N : NumOps} (front : list (list N)) (ideal nadir : list N) (vars : option (list (list N))) : option (nv_content N) :=
  match nv_start (nv_init front ideal nadir vars) with NReq c => Some c | _ => None end.

Definition betweenb (F : list (list F64)) (c : nv_content F64) : bool :=
  forallb (fun z => implb (w_vleb z (nc_nav c)) (w_vleb z (towards (nc_left c) (nc_nav c) z) && w_vleb (towards (nc_left c) (nc_nav c) z) (nc_nav c))) F.
Lemma betweenb_spec F c : betweenb F c = true -> stays_between F (nc_left c) (nc_nav c).
Proof.
  intros H z Hz Hle. unfold betweenb in H. rewrite forallb_forall in H. specialize (H z Hz).
  apply w_vleb_spec in Hle. rewrite Hle in H. apply andb_prop in H as [A B]. split; apply w_vleb_spec; assumption.
Qed.

(** *** A session of 100 steps in which rounding does no harm *)
Definition p_front : list (list F64) := [[0; 4]; [1; 2]; [3; 1]; [4; 0]]%float.
Definition p_ideal : list F64 := [0; 0]%float.
Definition p_nadir : list F64 := [5; 5]%float.
Definition p_ref : list F64 := [0; 0]%float.
Definition p_ans := fans 0 0 1 false none2.

Lemma nondom_dec (F : list (list F64)) :
  forallb (fun a => forallb (fun b => implb (w_vleb a b) (w_vleb b a)) F) F = true -> mutually_nondominated F.
Proof.
  intros H a b Ha Hb [H1 H2]. apply H2. rewrite forallb_forall in H. specialize (H a Ha). rewrite forallb_forall in H. specialize (H b Hb).
  apply w_vleb_spec in H1. rewrite H1 in H. apply w_vleb_spec. exact H.
Qed.
Lemma pm_proper_dec (F : list (list F64)) (ideal nd q : list F64) :
  forallb (fun row => @nisnan F64 (pm_asf nd ideal (map (fun _ => nnan) row) q)) F = true ->
  forallb (fun row => negb (@nisnan F64 (pm_asf nd ideal row q))) F = true -> proper_asf pm_asf F ideal nd q.
Proof.
  intros A B. rewrite forallb_forall in A, B. split; intros row H; [apply A; auto|].
  apply B in H. destruct (nisnan (pm_asf nd ideal row q)); [discriminate|reflexivity].
Qed.
Lemma p_plain : plain_answer pm_asf p_front p_ideal p_nadir p_ans.
Proof.
  split; [split; reflexivity|]. split; [reflexivity|]. exists p_ref. split; [reflexivity|]. split; [reflexivity|].
  apply pm_proper_dec; vm_compute; reflexivity.
Qed.
Definition p_run (n : nat) : option (nv_state F64 * nv_content F64) :=
  match start_content p_front p_ideal p_nadir None with
  | Some c => steps pm_asf (betweenb p_front) n p_ans (nv_init p_front p_ideal p_nadir None) c
  | None => None
  end.
Definition p_check (n : nat) : bool :=
  match p_run n with Some (_, c) => (nc_left c =? 100 - Z.of_nat (Nat.min n 99))%Z && w_vleb (nc_nav c) [1; 2]%float && w_vleb [1; 2]%float (nc_nav c) && Nat.eqb (length (idx_list (nc_idx c))) 1 | None => false end.
Lemma p_check_100 : p_check 100 = true.
Proof. vm_compute. reflexivity. Qed.
Lemma p_extract n : p_check n = true -> exists s c, plain_session pm_asf p_front p_ideal p_nadir None s c /\
  nc_left c = (100 - Z.of_nat (Nat.min n 99))%Z /\ vle (nc_nav c) ([1; 2]%float : list F64) /\ vle ([1; 2]%float : list F64) (nc_nav c) /\ length (idx_list (nc_idx c)) = 1.
Proof.
  unfold p_check. destruct (p_run n) as [[s c]|] eqn:E; [|discriminate]. intros H.
  apply andb_prop in H as [H H4]. apply andb_prop in H as [H H3]. apply andb_prop in H as [H1 H2].
  exists s, c. split.
  - unfold p_run in E. destruct (start_content p_front p_ideal p_nadir None) as [c0|] eqn:E0; [|discriminate].
    eapply steps_plain; [exact p_plain|exact (betweenb_spec p_front)| |exact E]. constructor. unfold start_content in E0.
    destruct (nv_start (nv_init p_front p_ideal p_nadir None)); [injection E0 as ->; reflexivity|discriminate].
  - split; [apply Z.eqb_eq; exact H1|]. split; [apply w_vleb_spec; exact H2|]. split; [apply w_vleb_spec; exact H3|apply Nat.eqb_eq; exact H4].
Qed.

(** The hypotheses of C28_any_arithmetic are met by a complete session of doubles. *)
Example C28_hypotheses_met :
  setup 2 p_front p_ideal p_nadir None /\ p_front <> [] /\ enclosed p_front p_ideal p_nadir /\ mutually_nondominated p_front /\
  plain_answer pm_asf p_front p_ideal p_nadir p_ans /\
  exists s c, plain_session pm_asf p_front p_ideal p_nadir None s c /\ nc_left c = 1%Z /\
    vle (nc_nav c) ([1; 2]%float : list F64) /\ vle ([1; 2]%float : list F64) (nc_nav c) /\ length (idx_list (nc_idx c)) = 1.
Proof.
  split; [repeat split; repeat constructor|]. split; [discriminate|]. split; [repeat split; repeat constructor|].
  split; [apply nondom_dec; vm_compute; reflexivity|]. split; [exact p_plain|]. exact (p_extract 100 p_check_100).
Qed.

(** *** A session in which rounding does harm *)
Definition r_front : list (list F64) := [[0; 3]; [3; 0]]%float.
Definition r_ideal : list F64 := [0; 0]%float.
Definition r_nadir : list F64 := [3; 3]%float.
Definition r_ref1 : list F64 := [0; 3]%float.
Definition r_ref2 : list F64 := [3; 0]%float.
Definition r_ans := fans 0 3 1 false none2.
Definition r_other := fans 3 0 1 false none2.
Definition r_stop : nv_dict F64 := MkND (N:=F64) (Some r_ref1) (Some (VInt 1)) (Some (VBool false)) (Some none2) (Some (VBool true)).
Lemma r_plain1 : plain_answer pm_asf r_front r_ideal r_nadir r_ans.
Proof.
  split; [split; reflexivity|]. split; [reflexivity|]. exists r_ref1. split; [reflexivity|]. split; [reflexivity|].
  apply pm_proper_dec; vm_compute; reflexivity.
Qed.
Lemma r_plain2 : plain_answer pm_asf r_front r_ideal r_nadir r_other.
Proof.
  split; [split; reflexivity|]. split; [reflexivity|]. exists r_ref2. split; [reflexivity|]. split; [reflexivity|].
  apply pm_proper_dec; vm_compute; reflexivity.
Qed.
Definition r_run (n : nat) : option (nv_state F64 * nv_content F64) :=
  match start_content r_front r_ideal r_nadir None with
  | Some c => steps pm_asf (fun _ => true) n r_ans (nv_init r_front r_ideal r_nadir None) c
  | None => None
  end.
Definition empty_idx (i : idxarr) : bool := match idx_list i with [] => true | _ => false end.
Definition r_check (n : nat) : bool :=
  match r_run n with
  | Some (s, c) =>
      empty_idx (nc_idx c) && (match ns_proj s with Some 0 => true | _ => false end) &&
      (match nv_validate c r_other, nv_iterate pm_asf (NReq c) (Some r_other) s with Ok _, (_, Raise ValueErr) => true | _, _ => false end) &&
      (match nv_validate c r_stop, nv_iterate pm_asf (NReq c) (Some r_stop) s with Ok _, (_, Ok (NStop [] None _)) => true | _, _ => false end)
  | None => false
  end.
Lemma r_extract n : r_check n = true -> exists s c,
  nv_session pm_asf r_front r_ideal r_nadir None (repeat r_ans n) s c /\ idx_list (nc_idx c) = [] /\ ns_proj s = Some 0 /\
  nv_validate c r_other = Ok tt /\ (exists s', nv_iterate pm_asf (NReq c) (Some r_other) s = (s', Raise ValueErr)) /\
  nv_validate c r_stop = Ok tt /\ (exists s' i, nv_iterate pm_asf (NReq c) (Some r_stop) s = (s', Ok (NStop [] None i))).
Proof.
  unfold r_check. destruct (r_run n) as [[s c]|] eqn:E; [|discriminate]. intros H.
  apply andb_prop in H as [H H4]. apply andb_prop in H as [H H3]. apply andb_prop in H as [H1 H2].
  exists s, c. split.
  - unfold r_run in E. destruct (start_content r_front r_ideal r_nadir None) as [c0|] eqn:E0; [|discriminate].
    apply (steps_session pm_asf r_front r_ideal r_nadir None (fun _ => true) n r_ans [] (nv_init r_front r_ideal r_nadir None) c0); [|exact E]. constructor. unfold start_content in E0.
    destruct (nv_start (nv_init r_front r_ideal r_nadir None)); [injection E0 as ->; reflexivity|discriminate].
  - split. { unfold empty_idx in H1. destruct (idx_list (nc_idx c)); [reflexivity|discriminate]. }
    split. { destruct (ns_proj s) as [[|]|]; [reflexivity|discriminate..]. }
    split. { destruct (nv_validate c r_other) as [[]|]; [reflexivity|discriminate]. }
    split. { destruct (nv_validate c r_other); [|discriminate]. destruct (nv_iterate pm_asf (NReq c) (Some r_other) s) as [s' [|[]]]; try discriminate. eexists; reflexivity. }
    split. { destruct (nv_validate c r_stop) as [[]|]; [reflexivity|discriminate]. }
    destruct (nv_validate c r_stop); [|discriminate]. destruct (nv_iterate pm_asf (NReq c) (Some r_stop) s) as [s' [[|[|] [|] i]|]]; try discriminate. eexists _, _; reflexivity.
Qed.
Lemma r_check_1 : r_check 1 = true.
Proof. vm_compute. reflexivity. Qed.
Lemma r_check_100 : r_check 100 = true.
Proof. vm_compute. reflexivity. Qed.

(** ** C28 is false with doubles: 0.99 * 3 + 0.01 * 3 is below 3, so after one answer no row
    is reachable although the front row (0, 3) is the projection; an answer with another
    reference point then raises ValueError, stopping returns no solution, and after
    all 100 steps, at the projection, there is still none. *)
Theorem C28_doubles_refuted :
  setup 2 r_front r_ideal r_nadir None /\ enclosed r_front r_ideal r_nadir /\ mutually_nondominated r_front /\
  plain_answer pm_asf r_front r_ideal r_nadir r_ans /\ plain_answer pm_asf r_front r_ideal r_nadir r_other /\
  forall n, n = 1 \/ n = 100 -> exists s c,
    nv_session pm_asf r_front r_ideal r_nadir None (repeat r_ans n) s c /\ idx_list (nc_idx c) = [] /\ ns_proj s = Some 0 /\
    nv_validate c r_other = Ok tt /\ (exists s', nv_iterate pm_asf (NReq c) (Some r_other) s = (s', Raise ValueErr)) /\
    nv_validate c r_stop = Ok tt /\ (exists s' i, nv_iterate pm_asf (NReq c) (Some r_stop) s = (s', Ok (NStop [] None i))).
Proof.
  split; [repeat split; repeat constructor|]. split; [repeat split; repeat constructor|].
  split; [apply nondom_dec; vm_compute; reflexivity|]. split; [exact r_plain1|]. split; [exact r_plain2|].
  intros n [->| ->]; [exact (r_extract 1 r_check_1)|exact (r_extract 100 r_check_100)].
Qed.
Print Assumptions C28_doubles_refuted.
