(** * Specification vocabulary for PAINT, independent of the loops of the model. *)
From Coq Require Import ZArith List Bool Lia Reals.
From Verif Require Import Num NumXR Py Np Spec XRFacts MRpm MParetoNav SParetoNav MPaint.
Import ListNotations.

Section SPaint.
  Context {N : NumOps} {Cfg : Type}.
  Notation vec := (list N).
  Notation mat := (list (list N)).
  Notation row := (list Z).

  (** The outcomes that approximate works on: the argument, or those of the object. *)
  Definition uses (given : option mat) (o : pt_obj N) (P : mat) : Prop := given = Some P \/ (given = None /\ po_outcomes o = P).
  (** A row of the result: at least one entry, each the index of an outcome. *)
  Definition row_ok (P : mat) (r : row) : Prop := r <> [] /\ Forall (fun z => (0 <= z < Z.of_nat (length P))%Z) r.
  (** Its vertices. *)
  Definition vertices (P : mat) (r : row) (v : mat) : Prop :=
    Forall2 (fun z p => (0 <= z)%Z /\ nth_error P (Z.to_nat z) = Some p) r v.
  (** The generated polytopes. *)
  Definition generates (e : pt_env N Cfg) (P : mat) (G : list row) : Prop :=
    exists S, pt_delaunay e P = TriOk S /\ pt_generate e S = Ok G /\ Forall (row_ok P) G.

  (** Rule 1: inherently nondominated, and no conflict with an outcome. *)
  Definition passes (e : pt_env N Cfg) (cfg : Cfg) (P : mat) (v : mat) : Prop :=
    pt_inherent e v (Some cfg) = Ok true /\
    forall o, In o P -> pt_dominates e (Outcome o) (Polytope v) (Some cfg) = Ok false /\ pt_dominates e (Polytope v) (Outcome o) (Some cfg) = Ok false.
  Definition fails (e : pt_env N Cfg) (cfg : Cfg) (P : mat) (v : mat) : Prop :=
    pt_inherent e v (Some cfg) = Ok false \/
    exists o, In o P /\ (pt_dominates e (Outcome o) (Polytope v) (Some cfg) = Ok true \/ pt_dominates e (Polytope v) (Outcome o) (Some cfg) = Ok true).
  (** Rule 2: what the tests between two polytopes said. *)
  Definition clash (e : pt_env N Cfg) (v w : mat) : Prop :=
    pt_dominates e (Polytope v) (Polytope w) None = Ok true \/ pt_dominates e (Polytope w) (Polytope v) None = Ok true.
  Definition apart (e : pt_env N Cfg) (v w : mat) : Prop :=
    pt_dominates e (Polytope v) (Polytope w) None = Ok false /\ pt_dominates e (Polytope w) (Polytope v) None = Ok false.

  (** The order: number of different entries, then the least entry. *)
  Definition distinct (r : row) (n : nat) : Prop := exists l, NoDup l /\ (forall z, In z l <-> In z r) /\ length l = n.
  Definition least (r : row) (m : Z) : Prop := In m r /\ forall z, In z r -> (m <= z)%Z.
  Definition not_after (a b : row) : Prop :=
    forall na nb ma mb, distinct a na -> distinct b nb -> least a ma -> least b mb -> na < nb \/ (na = nb /\ (ma <= mb)%Z).

  (** The oracles answer. *)
  Definition pt_answers (e : pt_env N Cfg) : Prop :=
    (forall v c, exists b, pt_inherent e v c = Ok b) /\ (forall a b c, exists r, pt_dominates e a b c = Ok r).
End SPaint.

(** ** Over the reals: the tests are exact. *)
Definition rdom (p q : list R) : Prop := rvle p q /\ ~ rvle q p.
Definition pt_points (a : pt_arg XR) : list (list R) -> Prop :=
  fun v => match a with Outcome o => exists p, o = xv p /\ v = [p] | Polytope m => m = xm v end.
(** polytope_dominates: some point of the hull of [a] dominates some point of the hull of [b];
    inherently_nondominated: no point of the hull dominates another. *)
Definition pt_exact {Cfg} (k : nat) (e : pt_env XR Cfg) : Prop :=
  (forall v c, v <> [] -> (pt_inherent e (xm v) c = Ok true /\ (forall p q, in_hull k v p -> in_hull k v q -> ~ rdom p q)) \/
               (pt_inherent e (xm v) c = Ok false /\ (exists p q, in_hull k v p /\ in_hull k v q /\ rdom p q))) /\
  (forall a b v w c, pt_points a v -> pt_points b w -> v <> [] -> w <> [] ->
    (pt_dominates e a b c = Ok true /\ (exists p q, in_hull k v p /\ in_hull k w q /\ rdom p q)) \/
    (pt_dominates e a b c = Ok false /\ (forall p q, in_hull k v p -> in_hull k w q -> ~ rdom p q))).
(** The union of the polytopes given by rows of indices. *)
Definition in_union (k : nat) (P : list (list R)) (R0 : list (list Z)) (p : list R) : Prop :=
  exists r v, In r R0 /\ vertices (xm P) r (xm v) /\ in_hull k v p.
