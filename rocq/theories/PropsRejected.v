(** * C100: a rejected answer is rejected with the exception of the method.

    [validate request answer = Raise e] reads: assigning the answer to the
    request raises [e].  [MethodExn] is the exception class of the method at hand
    (NautilusNavigatorException, NimbusException, RPMException, NautilusException).
    E-NAUTILUS is C09_rejected_exception, Pareto Navigator is C78. *)
From Coq Require Import ZArith List Bool Lia.
From Verif Require Import Num NumF64 Py Np NpFacts MNavigator MNimbus MRpm.
From Verif Require MNautilus.
Import ListNotations.

(** An int, a float or a bool. *)
Definition is_number {N} (v : pyval N) : Prop :=
  match v with VInt _ | VBool _ | VFloat _ _ => True | _ => False end.
Definition is_bool {N} (v : pyval N) : Prop := match v with VBool _ => True | _ => False end.
(** The key is absent, or its value has the property. *)
Definition if_given {A} (o : option A) (P : A -> Prop) : Prop := match o with Some a => P a | None => True end.

Ltac cases H :=
  repeat (first [discriminate H | match type of H with context [match ?x with _ => _ end] => destruct x end]).

(** ** NAUTILUS Navigator *)
(** The only other exception is TypeError, when "go_to_previous" or "stop" is not a bool. *)
Theorem C100_navigator_partial :
  forall (N : NumOps) (c : nv_content N) (d : nv_dict N) e, nv_validate c d = Raise e ->
  e = MethodExn \/ (e = TypeErr /\ ~ (if_given (nd_prev d) is_bool /\ if_given (nd_stop d) is_bool)).
Proof.
  intros N c d e H. unfold nv_validate in H. destruct d as [ref speed prev ub stop]. cbn [nd_ref nd_speed nd_prev nd_bounds nd_stop] in *.
  destruct ref as [ref|]; [|left; congruence]. destruct speed as [speed|]; [|left; congruence].
  destruct prev as [prev|]; [|left; congruence]. destruct ub as [ub|]; [|left; congruence]. destruct stop as [stop|]; [|left; congruence].
  destruct (bany nltb ref _) as [[|]|]; try (left; congruence). destruct (bany _ ref _) as [[|]|]; try (left; congruence).
  destruct (py_int speed) as [z|]; [|left; congruence]. destruct (negb (_ && _)); [left; congruence|].
  cbn [if_given].
  destruct prev; try (right; split; [congruence|cbn [is_bool]; tauto]).
  destruct (negb _); [left; congruence|]. destruct stop; try discriminate; right; (split; [congruence|cbn [is_bool]; tauto]).
Qed.
Print Assumptions C100_navigator_partial.

(** ** NIMBUS *)
(** A save or a most-preferred answer is only ever rejected with a NimbusException. *)
Theorem C100_nimbus_save_preferred :
  forall (N : NumOps) (p : nb_problem N) ideal nadir sols objs (d : nb_dict N) e,
  nb_validate p ideal nadir (QSave sols objs) d = Raise e \/ nb_validate p ideal nadir (QPref sols objs) d = Raise e ->
  e = MethodExn.
Proof.
  intros N p ideal nadir sols objs d e [H|H]; cbn [nb_validate] in H.
  - unfold nb_validate_save in H. cases H; congruence.
  - unfold nb_validate_pref in H. cases H; congruence.
Qed.
Print Assumptions C100_nimbus_save_preferred.

(** An answer about intermediate solutions: TypeError when the number of them is not a number. *)
Theorem C100_nimbus_intermediate_partial :
  forall (N : NumOps) (p : nb_problem N) ideal nadir sols objs (d : nb_dict N) e,
  nb_validate p ideal nadir (QInter sols objs) d = Raise e ->
  e = MethodExn \/ (e = TypeErr /\ ~ if_given (bd_ndes d) is_number).
Proof.
  intros N p ideal nadir sols objs d e H. cbn [nb_validate] in H. unfold nb_validate_inter in H.
  destruct (bd_indices d) as [ix|]; [|left; congruence]. destruct (bd_ndes d) as [v|]; [|left; congruence]. cbn [if_given].
  destruct v; cbn [py_lt rbind is_number] in *; try (right; split; [congruence|tauto]); left;
    cbn [py_gt] in H; cases H; cbn [rbind] in H; cases H; congruence.
Qed.
Print Assumptions C100_nimbus_intermediate_partial.

(** A classification: TypeError when the number of solutions is not a number, or when a
    single level is given; IndexError when an objective that does not exist is
    classified "improve until" or "impair until". *)
Lemma where_bound c l i : In i (where_cls c l) -> i < length l.
Proof. intros H. unfold where_cls in H. apply argwhere_spec in H. rewrite <- (map_length (cls_eqb c)). apply nth_error_Some. rewrite H. discriminate. Qed.
Theorem C100_nimbus_classification_partial :
  forall (N : NumOps) (p : nb_problem N) ideal nadir ref (d : nb_dict N) e,
  length ideal = p_nobj p -> length nadir = p_nobj p ->
  nb_validate p ideal nadir (QClass ref) d = Raise e ->
  e = MethodExn \/
  (e = TypeErr /\ (~ if_given (bd_nsol d) is_number \/ exists x, bd_levels d = Some [x])) \/
  (e = IndexErr /\ exists cl, bd_cls d = Some cl /\ p_nobj p < length cl).
Proof.
  intros N p ideal nadir ref d e Li Ln H. cbn [nb_validate] in H. unfold nb_validate_cls in H.
  destruct (bd_cls d) as [cl|]; [|left; congruence]. destruct (bd_levels d) as [lv|]; [|left; congruence].
  destruct (bd_nsol d) as [ns|]; [|left; congruence]. cbn [if_given].
  destruct (negb (forallb _ cl)); [left; congruence|].
  destruct (Nat.eqb (length lv) 1) eqn:E1.
  { right; left. split; [congruence|]. right. apply Nat.eqb_eq in E1. destruct lv as [|x [|]]; cbn in E1; try discriminate. exists x; reflexivity. }
  destruct (negb (Nat.eqb (length lv) (p_nobj p))) eqn:E2; [left; congruence|].
  apply negb_false_iff, Nat.eqb_eq in E2.
  assert (LB : forall c x, levels_bad lv ideal nadir (where_cls c cl) = Raise x -> x = IndexErr /\ p_nobj p < length cl).
  { intros c x Hx. destruct (Nat.ltb (p_nobj p) (length cl)) eqn:El.
    - split; [|apply Nat.ltb_lt in El; exact El]. unfold levels_bad in Hx.
      assert (T : forall (v : list N) ix y, take v ix = Raise y -> y = IndexErr).
      { clear. intros v ix. unfold take. induction ix as [|i ix IH]; intros y Hy; cbn in Hy; [discriminate|].
        unfold at_ in Hy. destruct (nth_error v i); cbn in Hy; [|congruence].
        destruct (rseq _) as [w|] eqn:E; cbn in Hy; [discriminate|]. injection Hy as <-. apply IH. reflexivity. }
      destruct (take lv _) eqn:A; cbn [rbind] in Hx; [|injection Hx as <-; eauto].
      destruct (take ideal _) eqn:B; cbn [rbind] in Hx; [|injection Hx as <-; eauto].
      destruct (negb _); [discriminate|].
      destruct (take nadir _) eqn:C; cbn [rbind] in Hx; [discriminate|injection Hx as <-; eauto].
    - exfalso. apply Nat.ltb_ge in El.
      assert (T : forall v : list N, length v = p_nobj p -> exists w, take v (where_cls c cl) = Ok w).
      { intros v Lv.
        assert (G : forall ix, (forall i, In i ix -> i < length v) -> exists w, take v ix = Ok w).
        { clear. intros ix. unfold take. induction ix as [|i ix IH]; intros G; [exists []; reflexivity|].
          destruct IH as [w Hw]; [intros; apply G; right; assumption|].
          cbn. unfold at_ at 1. destruct (nth_error v i) eqn:E.
          - rewrite Hw. eexists; reflexivity.
          - apply nth_error_None in E. specialize (G i (or_introl eq_refl)). lia. }
        apply G. intros i Hi. apply where_bound in Hi. lia. }
      unfold levels_bad in Hx. destruct (T lv E2) as [a Ta]. destruct (T ideal Li) as [b Tb]. destruct (T nadir Ln) as [g Tg]. rewrite Ta, Tb, Tg in Hx.
      cbn [rbind] in Hx. destruct (negb _) in Hx; discriminate. }
  assert (LB' : forall c x, (if Nat.ltb 0 (length (where_cls c cl)) then levels_bad lv ideal nadir (where_cls c cl) else Ok false) = Raise x ->
                x = IndexErr /\ p_nobj p < length cl).
  { clear H. intros c x Hx. destruct (Nat.ltb 0 (length (where_cls c cl))); [exact (LB _ _ Hx)|discriminate]. }
  cbv zeta in H.
  destruct (if Nat.ltb 0 (length (where_cls CImproveUntil cl)) then _ else _) as [b1|x1] eqn:B1; cbn [rbind] in H.
  2:{ injection H as <-. right; right. destruct (LB' _ _ B1) as [-> ?]. split; [reflexivity|]. exists cl; auto. }
  destruct b1; [left; congruence|].
  destruct (if Nat.ltb 0 (length (where_cls CImpairUntil cl)) then _ else _) as [b2|x2] eqn:B2; cbn [rbind] in H.
  2:{ injection H as <-. right; right. destruct (LB' _ _ B2) as [-> ?]. split; [reflexivity|]. exists cl; auto. }
  destruct b2; [left; congruence|].
  destruct ns; cbn [py_gt rbind is_number] in *; try (right; left; split; [congruence|tauto]); left;
    cbn [py_lt] in H; cases H; cbn [rbind] in H; cases H; congruence.
Qed.
Print Assumptions C100_nimbus_classification_partial.

(** ** Reference point method *)
(** AttributeError when the reference point is not an array, KeyError when the decision
    maker is satisfied and names no solution, TypeError when the index is not a number. *)
Theorem C100_rpm_partial :
  forall (N : NumOps) ideal nadir (q : rp_request N) (d : rp_dict N) e,
  rp_validate ideal nadir q d = Raise e ->
  e = MethodExn \/ (e = AttrErr /\ rd_ref d = Some RNoArr) \/
  (rp_satisfied d = true /\
   ((e = KeyErr /\ rd_idx d = None) \/ (e = TypeErr /\ exists v, rd_idx d = Some v /\ ~ is_number v))).
Proof.
  intros N ideal nadir q d e H.
  assert (HR : match rd_ref d with None => Raise MethodExn | Some a => rp_validate_ref a ideal nadir end = Raise e ->
               e = MethodExn \/ (e = AttrErr /\ rd_ref d = Some RNoArr)).
  { intros E. destruct (rd_ref d) as [[r| |]|]; cbn [rp_validate_ref] in E; try (left; congruence).
    - destruct (negb _); [left; congruence|]. destruct (forallb _ _); [left; congruence|discriminate].
    - right; split; [congruence|reflexivity]. }
  destruct q as [|f fs|x f]; cbn [rp_validate] in H; [apply HR in H; tauto| |discriminate].
  destruct (rp_satisfied d) eqn:S; [|apply HR in H; tauto].
  destruct (rd_idx d) as [v|]; cbn [key rbind] in H.
  2:{ right; right. split; [reflexivity|]. left. split; [congruence|reflexivity]. }
  destruct (negb (truthy v) && negb (py_eq v 0)); [left; congruence|].
  destruct v; cbn [py_ge rbind] in H;
    try (right; right; split; [reflexivity|]; right; split; [congruence|]; eexists; split; [reflexivity|cbn [is_number]; tauto]);
    left; cbn [py_le] in H; cases H; cbn [rbind] in H; cases H; congruence.
Qed.
Print Assumptions C100_rpm_partial.

(** ** NAUTILUS (version 1 and version 2) *)
(** What the documentation asks "preference_info" to be: numbers, one per objective, for
    methods 1 and 2 (an array in version 2); pairs of objectives with a ratio for
    method 3 of version 2. *)
Definition info_typed {N} (v : MNautilus.nt_variant N) (m : pyval N) (i : MNautilus.nt_info N) : Prop :=
  match v, i with
  | MNautilus.NV1, (MNautilus.PArr _ | MNautilus.PList _) => True
  | MNautilus.NV2 _ _, MNautilus.PArr _ => py_eq m 1 || py_eq m 2 = true
  | MNautilus.NV2 _ _, MNautilus.PPairs _ => py_eq m 3 = true /\ py_eq m 1 || py_eq m 2 = false
  | _, _ => False
  end.
Definition asks_back {N} (q : MNautilus.nt_request N) : bool := match q with MNautilus.NReq _ _ _ _ => true | _ => false end.

Lemma nt_pref_exn (N : NumOps) (v : MNautilus.nt_variant N) k (d : MNautilus.nt_dict N) e :
  1 <= k -> MNautilus.nt_check_pref v k d = Raise e ->
  e = MethodExn \/ ((e = TypeErr \/ e = IndexErr) /\
     exists m i, MNautilus.nd_method d = Some m /\ MNautilus.nd_info d = Some i /\ ~ info_typed v m i).
Proof.
  intros Hk H. unfold MNautilus.nt_check_pref in H.
  destruct (MNautilus.nd_method d) as [m|]; [|left; congruence]. destruct (MNautilus.nd_info d) as [i|]; [|left; congruence].
  assert (W : forall P : Prop, ~ info_typed v m i -> (e = TypeErr \/ e = IndexErr) -> P \/ ((e = TypeErr \/ e = IndexErr) /\
     exists m0 i0, Some m = Some m0 /\ Some i = Some i0 /\ ~ info_typed v m0 i0)).
  { intros P A B. right. split; [exact B|]. exists m, i. auto. }
  destruct v as [|st fu].
  - unfold MNautilus.nt1_check in H. destruct (negb _); [left; congruence|].
    destruct i as [w|w|l|]; cbn [MNautilus.info_len rbind] in H.
    4:{ apply W; [cbn; tauto|left; congruence]. }
    3:{ destruct (Nat.ltb _ k); [left; congruence|]. apply W; [cbn; tauto|left; congruence]. }
    all: destruct (Nat.ltb (length w) k) eqn:L; [left; congruence|]; apply Nat.ltb_ge in L;
      destruct (py_eq m 1); [destruct w as [|x w]; [cbn in L; lia|]; cbn [MNautilus.pymax rbind] in H; destruct (_ && _); [discriminate|left; congruence]|];
      destruct (neqb _ _); [discriminate|left; congruence].
  - unfold MNautilus.nt2_check in H. destruct (negb (py_eq m 1 || py_eq m 2 || py_eq m 3)) eqn:E0; [left; congruence|].
    apply negb_false_iff in E0.
    destruct (py_eq m 1 || py_eq m 2) eqn:E1.
    + destruct i as [w|w|l|]; cbn [rbind] in H; try (apply W; [cbn [info_typed]; rewrite ?E1; try tauto; intros [_ ?]; congruence|left; congruence]).
      left. cases H; congruence.
    + cbn [orb] in E0.
      destruct i as [w|w|l|]; cbn [MNautilus.info_len rbind] in H.
      4:{ apply W; [cbn; tauto|left; congruence]. }
      * destruct (negb _); [left; congruence|]. destruct w as [|x w]; cbn [rbind] in H.
        -- left. destruct (forallb _ _); [discriminate|congruence].
        -- apply W; [cbn [info_typed]; congruence|right; congruence].
      * destruct (negb _); [left; congruence|]. destruct w as [|x w]; cbn [rbind] in H.
        -- left. destruct (forallb _ _); [discriminate|congruence].
        -- apply W; [cbn [info_typed]; tauto|left; congruence].
      * destruct (negb _); [left; congruence|]. left.
        assert (P : forall (os : list (pyval N)) x, MNautilus.nt2_objs k os = Raise x -> x = MethodExn).
        { clear. induction os as [|o os IH]; intros x Hx; cbn in Hx; [discriminate|].
          destruct (as_int o) as [z|]; [|congruence]. destruct (z <=? 0)%Z; [congruence|]. destruct (z <=? _)%Z; [|congruence].
          destruct (MNautilus.nt2_objs k os) as [r|y]; cbn in Hx; [discriminate|]. apply IH. congruence. }
        assert (Q : forall x, rseq (map (MNautilus.nt2_pair k) l) = Raise x -> x = MethodExn).
        { clear - P. induction l as [|a l IH]; intros x Hx; cbn in Hx; [discriminate|].
          unfold MNautilus.nt2_pair at 1 in Hx. destruct (MNautilus.nt2_objs k (fst a)) as [os|y] eqn:Eo; cbn [rbind] in Hx.
          2:{ injection Hx as <-. eauto. }
          destruct (MNautilus.ratio_val (snd a)) as [r|]; [|cbn in Hx; congruence]. destruct (nleb r _); [cbn in Hx; congruence|].
          cbn [rbind] in Hx. destruct (rseq _) as [w|y]; cbn in Hx; [discriminate|]. apply IH. congruence. }
        destruct (rseq _) as [ms|y]; cbn [rbind] in H; [|injection H as <-; auto].
        destruct (forallb _ _); [discriminate|congruence].
Qed.

(** KeyError when a later answer lacks "step_back" or "use_previous_preference"; TypeError
    or IndexError when the preference information is not of the documented kind. *)
Theorem C100_nautilus_partial :
  forall (N : NumOps) (v : MNautilus.nt_variant N) nadir q (d : MNautilus.nt_dict N) e,
  1 <= length nadir -> MNautilus.nt_validate v nadir q d = Raise e ->
  e = MethodExn \/
  (e = KeyErr /\ asks_back q = true /\ (MNautilus.nd_back d = None \/ MNautilus.nd_prev d = None)) \/
  ((e = TypeErr \/ e = IndexErr) /\
   exists m i, MNautilus.nd_method d = Some m /\ MNautilus.nd_info d = Some i /\ ~ info_typed v m i).
Proof.
  intros N v nadir q d e Hk H.
  assert (CN : forall n x, MNautilus.nt_check_n (N:=N) n = Raise x -> x = MethodExn).
  { intros n x. unfold MNautilus.nt_check_n. destruct (as_int n); [destruct (_ <? _)%Z|]; congruence. }
  destruct q as [|z lo up di|x f]; cbn [MNautilus.nt_validate asks_back] in *; [| |discriminate].
  - destruct (MNautilus.nd_n d) as [n|], (MNautilus.nd_back d) as [b|], (MNautilus.nd_prev d) as [u|]; try (left; congruence).
    destruct (MNautilus.nt_check_pref v (length nadir) d) as [[]|y] eqn:E; cbn [rbind] in H.
    + left. eauto.
    + injection H as <-. apply nt_pref_exn in E; [tauto|exact Hk].
  - destruct (MNautilus.nd_back d) as [b|]; cbn [key rbind] in H; [|right; left; split; [congruence|auto]].
    destruct (truthy b && _); [left; congruence|].
    destruct (MNautilus.nd_prev d) as [u|]; cbn [key rbind] in H; [|right; left; split; [congruence|auto]].
    destruct (truthy u); cbn [rbind] in H.
    + left. destruct (MNautilus.nd_n d); [eauto|discriminate].
    + destruct (MNautilus.nt_check_pref v (length nadir) d) as [[]|y] eqn:E; cbn [rbind] in H.
      * left. destruct (MNautilus.nd_n d); [eauto|discriminate].
      * injection H as <-. apply nt_pref_exn in E; [tauto|exact Hk].
Qed.
Print Assumptions C100_nautilus_partial.

(** ** The data of the examples *)
Definition rj0 : F64 := f64_ofZ 0.
Definition rj1 : F64 := f64_ofZ 1.
Definition rj_content : nv_content F64 := MkNC [rj0] [rj1] [] [] [] (IList []) 1 100 rj0 None [].
Definition rj_answer : nv_dict F64 :=
  MkND (Some [rj1]) (Some (VInt 1)) (Some (VBool false)) (Some [None]) (Some VNone).
Definition rj_problem : nb_problem F64 := PDisc 2 [[rj0; rj1]; [rj1; rj0]] [[rj0]; [rj1]] (fun _ => O).
Definition rj_classes : nb_dict F64 :=
  MkBD (Some [CImprove; CFree; CImproveUntil]) (Some [rj0; rj0]) (Some (VInt 1)) None None None None.

(** Answers that are rejected with the exception of the method: a speed of 6; an index
    that is not shown; a level below the ideal; a reference point with one entry too
    many; a negative number of iterations. *)
Example C100_hypotheses_met :
  nv_validate rj_content (MkND (Some [rj1]) (Some (VInt 6)) (Some (VBool false)) (Some [None]) (Some (VBool false))) = Raise MethodExn /\
  nb_validate rj_problem [rj0; rj0] [rj1; rj1] (QSave [] [[rj0; rj1]]) (MkBD None None None (Some [1%Z]) None None None) = Raise MethodExn /\
  nb_validate rj_problem [rj0; rj0] [rj1; rj1] (QInter [] [[rj0; rj1]]) (MkBD None None None (Some [0%Z]) (Some (VInt 0)) None None) = Raise MethodExn /\
  nb_validate rj_problem [rj1; rj1] [rj1; rj1] (QClass [rj0; rj0])
    (MkBD (Some [CImprove; CImproveUntil]) (Some [rj0; rj0]) (Some (VInt 1)) None None None None) = Raise MethodExn /\
  rp_validate [rj0; rj0] [rj1; rj1] RInit (MkRD (Some (RArr [rj1; rj1; rj1])) None None) = Raise MethodExn /\
  MNautilus.nt_validate MNautilus.NV1 [rj1; rj1] MNautilus.NInit
    (MNautilus.MkND (Some (VInt (-1))) None None None (Some (VInt 1)) (Some (MNautilus.PList [rj1; rj1]))) = Raise MethodExn.
Proof. repeat split; vm_compute; reflexivity. Qed.

(** ** The other exceptions do occur *)
(** In every method of this file, in any arithmetic: a "stop" that is not a bool, a
    number of intermediate solutions given as None, a satisfied decision maker who names
    no solution, a later NAUTILUS answer without "use_previous_preference". *)
Theorem C100_own_exception_refuted :
  (exists (c : nv_content F64) d, nv_validate c d = Raise TypeErr) /\
  (forall (N : NumOps) p ideal nadir sols objs (d : nb_dict N), bd_indices d = Some [] -> bd_ndes d = Some VNone ->
     nb_validate p ideal nadir (QInter sols objs) d = Raise TypeErr) /\
  (forall (N : NumOps) p ideal nadir ref (d : nb_dict N), bd_cls d = Some [] -> (exists x n, bd_levels d = Some [x] /\ bd_nsol d = Some n) ->
     nb_validate p ideal nadir (QClass ref) d = Raise TypeErr) /\
  (exists p ideal nadir ref (d : nb_dict F64), length ideal = p_nobj p /\ length nadir = p_nobj p /\
     nb_validate p ideal nadir (QClass ref) d = Raise IndexErr) /\
  (forall (N : NumOps) ideal nadir f fs, rp_validate (N:=N) ideal nadir (RReq f fs) (MkRD None (Some (VBool true)) None) = Raise KeyErr) /\
  (forall (N : NumOps) ideal nadir f fs, rp_validate (N:=N) ideal nadir (RReq f fs) (MkRD None (Some (VBool true)) (Some VOther)) = Raise TypeErr) /\
  (forall (N : NumOps) ideal nadir, rp_validate (N:=N) ideal nadir RInit (MkRD (Some RNoArr) None None) = Raise AttrErr) /\
  (forall (N : NumOps) v nadir z lo up di (d : MNautilus.nt_dict N), MNautilus.nd_back d = None ->
     MNautilus.nt_validate v nadir (MNautilus.NReq z lo up di) d = Raise KeyErr) /\
  (forall (N : NumOps) v nadir (d : MNautilus.nt_dict N), MNautilus.nd_n d <> None -> MNautilus.nd_back d = None -> MNautilus.nd_prev d = None ->
     MNautilus.nd_method d = Some (VInt 1) -> MNautilus.nd_info d = Some MNautilus.POther ->
     MNautilus.nt_validate v nadir MNautilus.NInit d = Raise TypeErr).
Proof.
  repeat match goal with |- _ /\ _ => split end.
  - exists rj_content, rj_answer. vm_compute. reflexivity.
  - intros N p ideal nadir sols objs d E1 E2. cbn [nb_validate]. unfold nb_validate_inter. rewrite E1, E2. reflexivity.
  - intros N p ideal nadir ref d E1 (x & n & E2 & E3). cbn [nb_validate]. unfold nb_validate_cls. rewrite E1, E2, E3. reflexivity.
  - exists rj_problem, [rj0; rj0], [rj1; rj1], [rj0; rj0], rj_classes. vm_compute. auto.
  - reflexivity.
  - reflexivity.
  - reflexivity.
  - intros N v nadir z lo up di d E. cbn [MNautilus.nt_validate]. rewrite E. reflexivity.
  - intros N v nadir d E1 E2 E3 E4 E5. cbn [MNautilus.nt_validate]. destruct (MNautilus.nd_n d); [|congruence]. rewrite E2, E3.
    unfold MNautilus.nt_check_pref. rewrite E4, E5. destruct v; reflexivity.
Qed.
Print Assumptions C100_own_exception_refuted.
