(** * NAUTILUS Navigator: reference points given through arrays (C92).
    A session is a list of events ([MNavAlias.v]): arrays made by the decision
    maker, writes into them, and answers whose reference point is one of them.
    [nva_run] is the code, which keeps the array object; [nvv_run] is the same method
    given reference points by value, which is what all other Navigator theorems are
    about.  [as_given] lists the answers with the content each array had when it was
    handed over. *)
From Coq Require Import ZArith List Bool Lia Floats.
From Verif Require Import Num NumF64 F64Facts Py Np Spec NpFacts MNavigator SNavigator PENautilus PNavigator PNavigator2 PNavigator9 F64Sums F64Step SFloat F64Vec F64Walk PNavigator6 MNavAlias SNavAlias PNavAlias PropsDoubles2.
Import ListNotations.

(** ** C92: if no array is written into after it was part of an answer, a session is
    the session in which its content was passed by value: same requests, same object *)
Theorem C92_arrays_left_alone :
  forall (N : NumOps) (asf : @asf_fn N) front ideal nadir vars es,
  left_alone es ->
  (na_s (nva_run asf es (nva_init front ideal nadir vars)), na_reqs (nva_run asf es (nva_init front ideal nadir vars)))
  = nvv_run asf (as_given [] es) (nv_init front ideal nadir vars, [nv_start (nv_init front ideal nadir vars)]).
Proof.
  intros N asf front ideal nadir vars es H. apply (run_by_value asf es (nva_init front ideal nadir vars)); [reflexivity|cbn; intros; discriminate|exact H|cbn; intros; discriminate].
Qed.
Print Assumptions C92_arrays_left_alone.

(** ** C92, refuted part: a decision maker who keeps one array and writes her new
    reference points into it is not heard.  After the first answer (that goes
    forward) every request is the one that would have been issued had she given the
    first reference point each time, whatever she wrote (finite doubles) *)
Theorem C92_one_array_not_heard :
  forall (asf : @asf_fn F64) (front : list (list F64)) (ideal nadir : list F64) vars (v0 : list F64) d0 es s1 q1,
  let s0 := nv_init front ideal nadir vars in
  let session := ANew v0 :: AAnswer 0 0 d0 :: es in
  Forall ffin v0 -> contents_ok (N:=F64) (Forall ffin) es -> one_array 0 es ->
  forward d0 -> nv_iterate asf (nv_start s0) (Some (with_ref v0 d0)) s0 = (s1, Ok q1) ->
  na_reqs (nva_run asf session (nva_init front ideal nadir vars))
  = snd (nvv_run asf (all_with v0 (as_given [] session)) (s0, [nv_start s0])).
Proof.
  intros asf front ideal nadir vars v0 d0 es s1 q1 s0 session Hv0 HC HO [Hp Hst] H.
  assert (K := keeps_ok asf (nv_start s0) d0 v0 s0). rewrite H in K. cbn [fst] in K.
  assert (HI := iterate_eq asf (nv_start s0) (with_ref v0 d0) s0). rewrite H in HI. cbn [with_ref nd_ref nd_speed nd_prev nd_bounds nd_stop] in HI.
  rewrite Hp, Hst in HI. cbn [truthy] in HI.
  destruct (nd_speed d0) as [sp|] eqn:Esp; [|discriminate]. destruct (nd_bounds d0) as [ub|] eqn:Eub; [|discriminate].
  symmetry in HI. apply nv_forward_ok in HI. destruct HI as (ag & pi & proj & nav & rows & lb & ub' & dist & idx & Hr & _ & _ & _ & _ & _ & _ & _ & Hs & _).
  assert (Est : ns_step s1 = 2%Z) by (rewrite Hs; reflexivity).
  assert (Hag : ag = true) by (destruct Hr as [[_ Hr]|[Hr _]]; [exact Hr|elim Hr; reflexivity]).
  assert (Eref : ns_ref s1 = Some v0) by (rewrite Hs, Hag; reflexivity).
  assert (Ek : nv_keeps asf v0 d0 s0 = true).
  { destruct (nv_keeps asf v0 d0 s0); [reflexivity|]. rewrite K in Eref. discriminate Eref. }
  subst session. unfold nva_run. cbn [fold_left]. fold (nva_run asf es).
  change (nva_step asf (ANew v0) (nva_init front ideal nadir vars)) with (MkNA [v0] s0 None [nv_start s0]).
  assert (E1 : nva_step asf (AAnswer 0 0 d0) (MkNA [v0] s0 None [nv_start s0]) = MkNA [v0] s1 (Some 0) [q1; nv_start s0]).
  { cbn [nva_step na_reqs na_heap na_s na_loc nth_error na_ref]. change (w_ref None s0) with s0. rewrite H, Ek. reflexivity. }
  rewrite E1. fold (nva_run asf es (MkNA [v0] s1 (Some 0) [q1; nv_start s0])).
  rewrite (run_one_array asf 0 es _ v0 s1); cbn [na_heap na_s na_loc na_reqs nth_error].
  - cbn [as_given app nth_error all_with map fst snd]. unfold nvv_run. cbn [fold_left]. unfold nvv_step at 3. cbn [fst snd nth_error].
    change (with_ref v0 (with_ref v0 d0)) with (with_ref v0 d0). rewrite H. reflexivity.
  - reflexivity.
  - exists v0. split; [reflexivity|]. apply allclose_refl_f. exact Hv0.
  - rewrite Est. lia.
  - rewrite Est. lia.
  - exact Eref.
  - apply allclose_refl_f. exact Hv0.
  - exists (ns_ref s1). symmetry. apply w_ref_id.
  - exact HO.
  - intros l v Hin. apply allclose_refl_f. apply (HC l v Hin).
Qed.
Print Assumptions C92_one_array_not_heard.

(** ** C92, witness: the same two answers given through one array and through two *)
Definition a1 : list F64 := [0.1%float; 2.0%float].
Definition a2 : list F64 := [2.0%float; 0.4%float].
Definition adict : nv_dict F64 := MkND None (Some (VInt 3)) (Some (VBool false)) (Some [None; None]) (Some (VBool false)).
Definition through_one : list (nva_event F64) := [ANew a1; AAnswer 0 0 adict; AEdit 0 a2; AAnswer 0 0 adict].
Definition through_two : list (nva_event F64) := [ANew a1; AAnswer 0 0 adict; ANew a2; AAnswer 0 1 adict].
(** what the latest request shows, and whether its validator takes the answer *)
Definition a_nav (st : nva_state F64) : option (list F64) :=
  match na_reqs st with NReq c :: _ => Some (nc_nav c) | _ => None end.
Definition a_takes (st : nva_state F64) (v : list F64) : bool :=
  match na_reqs st with NReq c :: _ => is_ok (nv_validate c (with_ref v adict)) | _ => false end.
Definition a_run es := nva_run (@pm_asf F64) es (nva_init gF gid gnd gV).

(** Both decision makers give the same two accepted reference points; the navigation
    points of the second step are different, and the one of the single array is the
    one of a decision maker who repeats the first reference point. *)
Theorem C92_same_answers_refuted :
  as_given [] through_one = as_given [] through_two /\
  (a_takes (a_run [ANew a1]) a1 = true /\ a_takes (a_run [ANew a1; AAnswer 0 0 adict]) a2 = true) /\
  (exists p1 p2, a_nav (a_run through_one) = Some p1 /\ a_nav (a_run through_two) = Some p2 /\ p1 <> p2 /\
                 nth_error p1 0 <> nth_error p2 0) /\
  a_nav (a_run through_one) = a_nav (a_run [ANew a1; AAnswer 0 0 adict; ANew a1; AAnswer 0 1 adict]).
Proof.
  split; [reflexivity|]. split; [split; vm_compute; reflexivity|]. split; [|vm_compute; reflexivity].
  assert (L : forall u v : list F64, match u, v with x :: _, y :: _ => negb (PrimFloat.eqb x y) && PrimFloat.eqb x x | _, _ => false end = true -> nth_error u 0 <> nth_error v 0).
  { intros [|x u] [|y v] T; try discriminate. cbn. intros E. injection E as ->. rewrite andb_comm in T. destruct (PrimFloat.eqb y y); discriminate. }
  assert (B : match a_nav (a_run through_one), a_nav (a_run through_two) with
              | Some (x :: _), Some (y :: _) => negb (PrimFloat.eqb x y) && PrimFloat.eqb x x | _, _ => false end = true) by (vm_compute; reflexivity).
  destruct (a_nav (a_run through_one)) as [u|]; [|discriminate]. destruct (a_nav (a_run through_two)) as [v|]; [|destruct u; discriminate].
  exists u, v. split; [reflexivity|]. split; [reflexivity|].
  assert (D : nth_error u 0 <> nth_error v 0) by (apply L; destruct u, v; auto). split; [|exact D]. intros ->. apply D. reflexivity.
Qed.
Print Assumptions C92_same_answers_refuted.

(** The hypotheses are met: two arrays left alone while a third is written into; one
    array written into between two answers. *)
Example C92_hypotheses_met :
  (left_alone [ANew a1; ANew a2; ANew a1; AAnswer 0 0 adict; AEdit 2 a2; AAnswer 0 1 adict] /\
   length (na_reqs (a_run [ANew a1; ANew a2; ANew a1; AAnswer 0 0 adict; AEdit 2 a2; AAnswer 0 1 adict])) = 3) /\
  Forall ffin a1 /\ contents_ok (N:=F64) (Forall ffin) [AEdit 0 a2; AAnswer 0 0 adict] /\ one_array 0 [AEdit 0 a2; AAnswer 0 0 adict] /\
  forward adict /\
  exists s1 q1, nv_iterate (@pm_asf F64) (nv_start (nv_init gF gid gnd gV)) (Some (with_ref a1 adict)) (nv_init gF gid gnd gV) = (s1, Ok q1).
Proof.
  assert (F1 : Forall ffin a1) by (apply (within_fin 10), gfinb_ok; [lia|vm_compute; reflexivity]).
  assert (F2 : Forall ffin a2) by (apply (within_fin 10), gfinb_ok; [lia|vm_compute; reflexivity]).
  split; [split|].
  - intros a i l d b v E Hin.
    repeat (destruct a as [|? a]; [try discriminate E; injection E as <- <- <- <-; cbn in Hin; repeat (destruct Hin as [Hin|Hin]; [try discriminate Hin; injection Hin; intros; lia|]); contradiction|]; cbn [app] in E; injection E as _ E).
    destruct a; discriminate E.
  - vm_compute. reflexivity.
  - split; [exact F1|]. split; [|split; [|split; [split; reflexivity|]]].
    + intros l v [H|[H|[]]]; [injection H as <- <-; exact F2|discriminate].
    + intros e [<-|[<-|[]]]; cbn; auto.
    + assert (B : match nv_iterate (@pm_asf F64) (nv_start (nv_init gF gid gnd gV)) (Some (with_ref a1 adict)) (nv_init gF gid gnd gV) with (_, Ok _) => true | _ => false end = true) by (vm_compute; reflexivity).
      destruct (nv_iterate (@pm_asf F64) (nv_start (nv_init gF gid gnd gV)) (Some (with_ref a1 adict)) (nv_init gF gid gnd gV)) as [s1 [q1|e]]; [eauto|discriminate].
Qed.
