(** * NAUTILUS and NAUTILUS 2: sessions with steps back (C108). *)
From Coq Require Import ZArith List Bool.
From Verif Require Import Num Py Np MNautilus SNautilus.
Import ListNotations.

Section Spec.
  Context {N : NumOps} (p : nt_problem N) (v : nt_variant N) (eps : N) (ideal nadir : list N).
  (** A step back without a short step and with new preferences. *)
  Definition full_back (d : nt_dict N) : Prop := says (nd_back d) true /\ says (nd_short d) false /\ says (nd_prev d) false /\ nd_n d = None.

  (** Any number of steps back (short, full, or failing), each in answer to the last request. *)
  Inductive went_back : nt_state N -> nt_request N -> nt_state N -> nt_request N -> Prop :=
  | wb_none s q : went_back s q s q
  | wb_more s q s1 q1 d s2 out : went_back s q s1 q1 -> nt_validate v nadir q1 d = Ok tt -> says (nd_back d) true -> nd_n d = None ->
      nt_iterate p v eps ideal nadir q1 (Some d) s1 = (s2, out) -> went_back s q s2 (match out with Ok (Some q2) => q2 | _ => q1 end).
End Spec.
