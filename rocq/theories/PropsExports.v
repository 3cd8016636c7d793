(** * Properties of the names the package exports (C61). *)
From Coq Require Import String.
From Coq Require Import ZArith List Bool.
From Verif Require Import Num NumF64 Py MRpm MNautilus MParetoNav MExports.
Import ListNotations.
Open Scope string_scope.

Definition last_import (l : imports) (n : string) (o : option obj) : Prop :=
  match o with
  | Some (m, n') => n' = n /\ exists l1 ns l2, l = (l1 ++ (m, ns) :: l2)%list /\ In n ns /\ forall s, In s l2 -> ~ In n (snd s)
  | None => forall s, In s l -> ~ In n (snd s)
  end.
Lemma bind_stmt_spec env s n : (In n (snd s) /\ bind_stmt env s n = Some (fst s, n)) \/ (~ In n (snd s) /\ bind_stmt env s n = env n).
Proof.
  destruct s as [m ns]. unfold bind_stmt. cbn [fst snd].
  assert (G : forall env, (In n ns /\ fold_left (bind_one m) ns env n = Some (m, n)) \/ (~ In n ns /\ fold_left (bind_one m) ns env n = env n)); [|apply G].
  induction ns as [|a ns IH]; intros e; cbn; [right; split; auto|].
  destruct (IH (bind_one m e a)) as [(H1 & H2)|(H1 & H2)]; [left; auto|]. rewrite H2. unfold bind_one.
  destruct (String.eqb_spec n a) as [->|D]; [left; auto|]. right. split; [|reflexivity]. intros [E|E]; [congruence|contradiction].
Qed.
(** For any sequence of import statements a name means what the last statement that
    mentions it imports. *)
Theorem C61_last_import_wins : forall l n, last_import l n (namespace l n).
Proof.
  intros l n. unfold namespace. induction l as [|s l IH] using rev_ind; [intros s []|].
  rewrite fold_left_app. cbn [fold_left]. destruct (bind_stmt_spec (fold_left bind_stmt l (fun _ => None)) s n) as [(H1 & ->)|(H1 & ->)].
  - destruct s as [m ns]. cbn. split; [reflexivity|]. exists l, ns, []. split; [reflexivity|]. split; [exact H1|]. intros s [].
  - destruct (fold_left bind_stmt l (fun _ => None) n) as [[m n']|]; cbn in *.
    + destruct IH as (-> & l1 & ns & l2 & -> & Hin & Hno). split; [reflexivity|]. exists l1, ns, (l2 ++ [s])%list.
      split; [rewrite <- app_assoc; reflexivity|]. split; [exact Hin|]. intros s' Hs. apply in_app_or in Hs. destruct Hs as [Hs|[<-|[]]]; auto.
    + intros s' Hs. apply in_app_or in Hs. destruct Hs as [Hs|[<-|[]]]; auto.
Qed.
Print Assumptions C61_last_import_wins.
(** Every advertised name exists and is what a module of that name or purpose defines. *)
Theorem C61_names_exist : forall n, In n interactive_all -> exists m, interactive n = Some (m, n).
Proof. apply Forall_forall. unfold interactive_all. repeat (constructor; [eexists; vm_compute; reflexivity|]). constructor. Qed.
Print Assumptions C61_names_exist.
(** For all methods but NAUTILUS the exported exception class is the one that the
    method raises. *)
Theorem C61_catches_own :
  forall m exc, In (m, exc) methods -> m <> "Nautilus" ->
  interactive m = Some (m, m) /\ caught exc m exc MethodExn.
Proof.
  intros m exc H Hm.
  assert (G : Forall (fun p => fst p <> "Nautilus" -> interactive (fst p) = Some (fst p, fst p) /\ caught (snd p) (fst p) (snd p) MethodExn) methods).
  { unfold methods. repeat (constructor; [cbn [fst snd]; intros D; first [congruence|split; [vm_compute; reflexivity|eexists; split; [vm_compute; reflexivity|reflexivity]]]|]). constructor. }
  rewrite Forall_forall in G. exact (G (m, exc) H Hm).
Qed.
Print Assumptions C61_catches_own.
(** Refuted for NAUTILUS: the exported NautilusException is that of NAUTILUS 2.  A
    rejected response of NAUTILUS is not caught by it; the same goes for the request
    classes, and validate_response is that of NAUTILUS 2. *)
Theorem C61_nautilus_refuted :
  interactive "Nautilus" = Some ("Nautilus", "Nautilus") /\
  (forall (N : NumOps) nadir (q : nt_request N) d x, nt_validate NV1 nadir q d = Raise x -> ~ caught "NautilusException" "Nautilus" "NautilusException" x) /\
  (forall n, In n ["NautilusException"; "NautilusInitialRequest"; "NautilusRequest"; "NautilusStopRequest"; "validate_response"; "validate_n_iterations"] ->
     interactive n = Some ("NautilusV2", n) /\ exists ns, In ("Nautilus", ns) interactive_imports /\ In n ns).
Proof.
  split; [vm_compute; reflexivity|]. split.
  - intros N nadir q d x _ (c & H1 & H2). vm_compute in H1. injection H1 as <-. destruct x; discriminate.
  - apply Forall_forall. repeat (constructor; [split; [vm_compute; reflexivity|eexists; split; [right; right; left; reflexivity|cbn; tauto]]|]). constructor.
Qed.
Print Assumptions C61_nautilus_refuted.

(** Refuted for the reference points of the Pareto Navigator: what
    validate_reference_point raises is the exception of the reference point method. *)
Theorem C61_pareto_navigator_refuted :
  (forall (N : NumOps) (a : rp_arr N) ideal nadir, rp_validate_ref a ideal nadir = Raise MethodExn -> pn_validate_ref a ideal nadir = Raise OtherMethodExn) /\
  ~ caught "ParetoNavigatorException" "ParetoNavigator" "ParetoNavigatorException" OtherMethodExn /\
  caught "RPMException" "ParetoNavigator" "ParetoNavigatorException" OtherMethodExn.
Proof.
  split; [intros N a ideal nadir H; unfold pn_validate_ref; rewrite H; reflexivity|]. split.
  - intros (c & H1 & H2). vm_compute in H1. injection H1 as <-. discriminate.
  - eexists. split; [vm_compute; reflexivity|reflexivity].
Qed.
Print Assumptions C61_pareto_navigator_refuted.

Definition e_bad : nt_dict F64 := MkND None None None None None None.
Example C61_hypotheses_met : nt_validate (N:=F64) NV1 [nofZ 0; nofZ 0] NInit e_bad = Raise MethodExn /\ caught "NautilusException" "NautilusV2" "NautilusException" MethodExn.
Proof. split; [reflexivity|]. eexists. split; [vm_compute; reflexivity|reflexivity]. Qed.
