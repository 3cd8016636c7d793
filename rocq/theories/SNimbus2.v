(** * NIMBUS: the vocabulary of C93 and C94. *)
From Coq Require Import ZArith String List Bool.
From Verif Require Import Num Py Np Spec MNimbus SNimbus MNimbusPlot.
Import ListNotations.

Section Spec.
  Context {N : NumOps}.
  Notation vec := (list N).
  Notation mat := (list (list N)).

  (** An answer whose parts have the right kind: one classification for each of the [k]
      objectives, finite levels, numbers of solutions that [int()] can read. *)
  Definition well_formed (fin : N -> Prop) (k : nat) (q : nb_request N) (d : nb_dict N) : Prop :=
    match q with
    | QClass _ => exists cl lv v n, bd_cls d = Some cl /\ length cl = k /\ bd_levels d = Some lv /\ Forall fin lv /\
                    bd_nsol d = Some v /\ py_toint v = Ok n
    | QInter _ _ => exists v n, bd_ndes d = Some v /\ py_toint v = Ok n
    | _ => True
    end.

  (** The answers that can be carried out on the data [objs] when the current objective
      vector is [cur]: a classification that some data row honours, any number of
      solutions to continue with except one; saving and choosing always can. *)
  Definition can_be_done (objs : mat) (cur : vec) (q : nb_request N) (d : nb_dict N) : Prop :=
    match q with
    | QClass _ => exists cl lv f, bd_cls d = Some cl /\ bd_levels d = Some lv /\ In f objs /\ honours cl cur lv f
    | QInter _ _ => exists ix, bd_indices d = Some ix /\ length ix <> 1
    | _ => True
    end.

  (** What is raised when it cannot. *)
  Definition refusal (q : nb_request N) : exn := match q with QClass _ => ValueErr | _ => IndexErr end.

  (** [n] answers, each accepted by the validator and each to the request returned last,
      lead from the state [s] and the request [q] to [s'] and [q']. *)
  Inductive leads (av : asf_val) (p : nb_problem N) (names : list string) (mult ideal nadir : vec)
    : nat -> nb_state N -> nb_request N -> nb_state N -> nb_request N -> Prop :=
  | leads_O s q : leads av p names mult ideal nadir 0 s q s q
  | leads_S n s q d s1 q1 pl s' q' :
      nb_validate p ideal nadir q d = Ok tt ->
      nb_iterate_p av p names mult ideal nadir q (Some d) s = (s1, Ok (q1, pl)) ->
      leads av p names mult ideal nadir n s1 q1 s' q' ->
      leads av p names mult ideal nadir (S n) s q s' q'.
End Spec.
