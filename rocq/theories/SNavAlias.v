(** * Specification: answers given through arrays. *)
From Coq Require Import ZArith List Bool.
From Verif Require Import Num Py Np MNavigator MNavAlias.
Import ListNotations.

Section Spec.
  Context {N : NumOps}.

  (** The answers of a session with the content each array has at the time. *)
  Fixpoint as_given (h : list (list N)) (es : list (nva_event N)) : list (nat * nv_dict N) :=
    match es with
    | [] => []
    | ANew v :: t => as_given (h ++ [v]) t
    | AEdit l v :: t => as_given (match set_nth h l v with Some h' => h' | None => h end) t
    | AAnswer i l d :: t =>
        match nth_error h l with
        | Some v => (i, with_ref v d) :: as_given h t
        | None => as_given h t
        end
    end.

  (** No array is written into after it has been part of an answer. *)
  Definition left_alone (es : list (nva_event N)) : Prop :=
    forall a i l d b v, es = a ++ AAnswer i l d :: b -> ~ In (AEdit l v) b.

  (** Every answer uses the array at [l], none of them asks to go back. *)
  Definition one_array (l : nat) (es : list (nva_event N)) : Prop :=
    forall e, In e es -> match e with
                         | AAnswer _ l' d => l' = l /\ match nd_prev d with Some p => truthy p = false | None => True end
                         | _ => True
                         end.

  (** The contents an array is given. *)
  Definition contents_ok (P : list N -> Prop) (es : list (nva_event N)) : Prop :=
    forall l v, In (AEdit l v) es -> P v.

  (** The same answers, all with reference point [v]. *)
  Definition all_with (v : list N) (l : list (nat * nv_dict N)) : list (nat * nv_dict N) :=
    map (fun a => (fst a, with_ref v (snd a))) l.
End Spec.
