(** * What the requests of E-NAUTILUS and NAUTILUS Navigator show (C96) and the checks of
    the constructors of the Navigator (C97) and of the reference point method (C98).
    [en_reach front ideal nadir vars s qs], [nv_reach asf front ideal nadir vars s qs]:
    after construction from these arguments and some history the object is in state [s]
    and has returned the requests [qs]. *)
From Coq Require Import ZArith List Bool Lia Floats.
From Verif Require Import Num NumXR NumF64 Py Np Spec MENautilus MNavigator MRpm SNavigator PNavigator3 PContents.
Import ListNotations.

(** ** C96: every request of E-NAUTILUS shows the ideal and nadir point the method was
    built with, and the method's data are the arguments of the constructor for ever *)
Theorem C96_enautilus_contents :
  forall (N : NumOps) (front : list (list N)) ideal nadir vars s qs,
  en_reach front ideal nadir vars s qs ->
  (forall i n, In (EInit i n) qs -> i = ideal /\ n = nadir) /\
  (forall mi c, In (EReq mi c) qs -> ec_ideal c = ideal /\ ec_nadir c = nadir) /\
  es_front s = front /\ es_ideal s = ideal /\ es_nadir s = nadir /\ es_vars s = vars.
Proof.
  intros N front ideal nadir vars s qs H. apply en_contents in H as [HC HQ]. rewrite Forall_forall in HQ.
  split; [intros i n Hin; exact (HQ _ Hin)|]. split; [intros mi c Hin; exact (HQ _ Hin)|exact HC].
Qed.
Print Assumptions C96_enautilus_contents.

(** ** C96: the same for NAUTILUS Navigator *)
Theorem C96_navigator_contents :
  forall (N : NumOps) (L : OrdLaws N) k (asf : @asf_fn N) front ideal nadir vars s qs,
  setup k front ideal nadir vars -> nv_reach asf front ideal nadir vars s qs ->
  forall c, In (NReq c) qs -> nc_ideal c = ideal /\ nc_nadir c = nadir.
Proof.
  intros N L k asf front ideal nadir vars s qs Hs Hr c Hc. pose proof (ginv_reach L _ _ _ _ _ _ _ _ Hs Hr) as [W G1 G2 G3 G4 G5].
  destruct (G5 c Hc) as [E1 E2]. split; congruence.
Qed.
Print Assumptions C96_navigator_contents.

Definition k_front : list (list F64) := [[0; 1]; [1; 0]]%float.
Definition k_ideal : list F64 := [0; 0]%float.
Definition k_nadir : list F64 := [1; 1]%float.
Definition k_km : @km_oracle F64 := fun _ _ => Ok [0].
Definition k_ans : en_dict F64 := MkED (Some (VInt 2)) (Some (VInt 1)) None None None None None None None None None.
Lemma k_play (chk : en_content F64 -> bool) km front ideal nadir d :
  (match en_iterate km (EInit ideal nadir) (Some d) (en_init front ideal nadir None) with (_, Ok (EReq _ c)) => chk c | _ => false end) = true ->
  en_validate (EInit ideal nadir) d = Ok tt ->
  exists s mi c, en_reach front ideal nadir None s [EReq mi c; EInit ideal nadir] /\ chk c = true.
Proof.
  intros H HV. pose proof (en_reach_step front ideal nadir None _ _ (EInit ideal nadir) (Some d) km
    (fst (en_iterate km (EInit ideal nadir) (Some d) (en_init front ideal nadir None))) (snd (en_iterate km (EInit ideal nadir) (Some d) (en_init front ideal nadir None)))
    (en_reach_init front ideal nadir None) (or_introl eq_refl)) as G.
  destruct (en_iterate km (EInit ideal nadir) (Some d) (en_init front ideal nadir None)) as [s [[|mi c|]|]]; try discriminate.
  exists s, mi, c. split; [|exact H]. apply G; [intros d' E; injection E as <-; exact HV|reflexivity].
Qed.
(** The hypotheses are met after the first answer. *)
Example C96_hypotheses_met :
  exists s mi c, en_reach k_front k_ideal k_nadir None s [EReq mi c; EInit k_ideal k_nadir] /\
    (PrimFloat.eqb (hd zero (ec_ideal c)) 0 && PrimFloat.eqb (hd zero (ec_nadir c)) 1 && negb (Nat.eqb (length (ec_points c)) 0))%float = true.
Proof. apply (k_play _ k_km _ _ _ k_ans); vm_compute; reflexivity. Qed.

(** ** C97: the constructor of NAUTILUS Navigator accepts exactly the consistent shapes *)
Theorem C97_navigator_constructor :
  forall front_shape ideal_shape nadir_shape vars_shape,
  (nv_ctor_check front_shape ideal_shape nadir_shape vars_shape = Ok tt <->
   exists rows k rest, front_shape = [rows; k] /\ ideal_shape = k :: rest /\ nadir_shape = ideal_shape /\
     (vars_shape = None \/ exists vrest, vars_shape = Some (rows :: vrest))) /\
  (nv_ctor_check front_shape ideal_shape nadir_shape vars_shape <> Ok tt ->
   ideal_shape <> [] -> vars_shape <> Some [] ->
   nv_ctor_check front_shape ideal_shape nadir_shape vars_shape = Raise MethodExn).
Proof. exact nv_ctor_spec. Qed.
Print Assumptions C97_navigator_constructor.

(** Consistent shapes are what the other properties of the Navigator assume: matrices and
    vectors of these shapes are a [setup]. *)
Theorem C97_accepted_is_setup :
  forall (N : NumOps) k (front : list (list N)) ideal nadir (vars : option (list (list N))),
  is_matrix k front ->
  nv_ctor_check [length front; k] [length ideal] [length nadir] (option_map (fun v => [length v; length (hd [] v)]) vars) = Ok tt <->
  setup k front ideal nadir vars.
Proof.
  intros N k front ideal nadir vars HM. rewrite (proj1 (nv_ctor_spec _ _ _ _)). unfold setup. split.
  - intros (rows & k' & rest & E1 & E2 & E3 & E4). injection E1 as <- <-. injection E2 as E2 _. injection E3 as E3.
    repeat split; auto; [congruence|]. destruct vars as [v|]; [|exact I]. cbn in E4. destruct E4 as [E4|[x E4]]; [discriminate|]. injection E4 as E4 _. auto.
  - intros (_ & E1 & E2 & E3). exists (length front), k, []. rewrite E1, E2. repeat split; auto.
    destruct vars as [v|]; [right; cbn; rewrite E3; eauto|left; reflexivity].
Qed.
Print Assumptions C97_accepted_is_setup.
Example C97_hypotheses_met :
  nv_ctor_check [2; 2] [2] [2] (Some [2; 5]) = Ok tt /\ nv_ctor_check [2; 2] [2] [2] (Some [3; 5]) = Raise MethodExn /\
  nv_ctor_check [2; 2] [3] [3] None = Raise MethodExn /\ is_matrix 2 k_front.
Proof. repeat split; repeat constructor. Qed.

(** ** C98: what the constructor of the reference point method checks *)
(** It succeeds exactly when ideal and nadir have the same length, there are no names or
    one per objective, and a non-empty minimize list comes with names - one per
    objective. *)
Theorem C98_constructor_checks :
  forall (N : NumOps) (ideal nadir : list N) names minimize,
  rp_ctor_check ideal nadir names minimize = Ok tt <->
  length ideal = length nadir /\
  (forall n, names = Some n -> n <> 0 -> n = length ideal) /\
  (forall m, minimize = Some m -> m <> 0 -> names = Some (length ideal)).
Proof.
  intros N ideal nadir names minimize. unfold rp_ctor_check.
  destruct (Nat.eqb_spec (length ideal) (length nadir)) as [E1|E1]; cbn [negb]; [|split; [discriminate|intros (H & _); contradiction]].
  set (B := forall n, names = Some n -> n <> 0 -> n = length ideal).
  set (C := forall m, minimize = Some m -> m <> 0 -> names = Some (length ideal)).
  assert (HB : match names with Some (S n) => if Nat.eqb (S n) (length ideal) then Ok tt else Raise MethodExn | _ => Ok tt end = Ok tt <-> B).
  { unfold B. destruct names as [[|n]|]; [split; [intros _ n E; injection E as <-; congruence|reflexivity]| |split; [discriminate|reflexivity]].
    destruct (Nat.eqb_spec (S n) (length ideal)); (split; [try discriminate; intros _ m E _; congruence|]); [reflexivity|]. intros H. exfalso. apply n0. apply H; [reflexivity|lia]. }
  destruct (match names with Some (S n) => _ | _ => _ end) as [[]|e]; cbn [rbind]; [|split; [discriminate|intros (_ & H & _); apply HB in H; discriminate]].
  assert (HC : match minimize with Some (S _) => match names with None => Raise TypeErr | Some n => if Nat.eqb n (length ideal) then Ok tt else Raise MethodExn end | _ => Ok tt end = Ok tt <-> C).
  { unfold C. destruct minimize as [[|m]|]; [split; [intros _ m E; injection E as <-; congruence|reflexivity]| |split; [discriminate|reflexivity]].
    destruct names as [n|]; [|split; [discriminate|intros H; specialize (H (S m) eq_refl ltac:(lia)); discriminate]].
    destruct (Nat.eqb_spec n (length ideal)); (split; [try discriminate; intros _ m' E _; congruence|]); [reflexivity|]. intros H. specialize (H (S m) eq_refl ltac:(lia)). congruence. }
  rewrite HC. intuition.
Qed.
Print Assumptions C98_constructor_checks.
(** When it does not succeed it raises the method's exception, except that a minimize
    list without names raises TypeError. *)
Theorem C98_exception :
  forall (N : NumOps) (ideal nadir : list N) names minimize,
  rp_ctor_check ideal nadir names minimize <> Ok tt -> (minimize = None \/ names <> None) ->
  rp_ctor_check ideal nadir names minimize = Raise MethodExn.
Proof.
  intros N ideal nadir names minimize. unfold rp_ctor_check. destruct (negb _); [reflexivity|].
  destruct names as [[|n]|]; cbn [rbind]; [| |].
  - destruct minimize as [[|m]|]; intros H1 H2; try (exfalso; apply H1; reflexivity). destruct (Nat.eqb _ _); [exfalso; apply H1; reflexivity|reflexivity].
  - destruct (Nat.eqb (S n) _); cbn [rbind]; [|reflexivity]. destruct minimize as [[|m]|]; intros H1 H2; exfalso; apply H1; reflexivity.
  - destruct minimize as [[|m]|]; intros H1 [H2|H2]; try (exfalso; apply H1; reflexivity); [discriminate|exfalso; apply H2; reflexivity].
Qed.
Print Assumptions C98_exception.
(** Refuted: a minimize list of the wrong length is accepted (the code compares the number
    of names again), and one without names raises TypeError. *)
Theorem C98_bad_arguments_refuted :
  rp_ctor_check (N:=F64) k_ideal k_nadir (Some 2) (Some 7) = Ok tt /\
  rp_ctor_check (N:=F64) k_ideal k_nadir None (Some 2) = Raise TypeErr.
Proof. split; vm_compute; reflexivity. Qed.
Print Assumptions C98_bad_arguments_refuted.
Example C98_hypotheses_met :
  rp_ctor_check (N:=F64) k_ideal k_nadir (Some 2) (Some 2) = Ok tt /\
  rp_ctor_check (N:=F64) k_ideal k_nadir (Some 3) None = Raise MethodExn.
Proof. split; vm_compute; reflexivity. Qed.
