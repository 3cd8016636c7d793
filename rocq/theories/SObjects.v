(** * Request objects: the vocabulary of C95. *)
From Coq Require Import ZArith List Bool.
From Verif Require Import Num Py Np MObjects.
Import ListNotations.

Section Spec.
  Context {S Q D K : Type}.
  Variables (validate : Q -> D -> res unit) (step : K -> Q -> option D -> SE S (option Q)).

  (** A dictionary that answers some request is only edited into one that this request
      would accept. *)
  Definition keeps_answers (e : ob_event D K) (w : ob_world S Q D) : Prop :=
    match e with
    | OEdit l d => forall i q, nth_error (ow_reqs w) i = Some (q, Some l) -> validate q d = Ok tt
    | _ => True
    end.
  Fixpoint all_keep_answers (es : list (ob_event D K)) (w : ob_world S Q D) : Prop :=
    match es with
    | [] => True
    | e :: es' => keeps_answers e w /\ all_keep_answers es' (fst (ob_exec validate step e w))
    end.

  (** Events that neither answer request [i] again nor edit the dictionary [l]. *)
  Definition leaves_alone (i l : nat) (e : ob_event D K) : Prop :=
    match e with OAnswer j _ => j <> i | OEdit l' _ => l' <> l | _ => True end.

  (** The contents of the requests returned, the last one first. *)
  Definition returned (w : ob_world S Q D) : list Q := rev (map fst (ow_reqs w)).
End Spec.
