(** * NIMBUS, plot requests: the vocabulary of C91. *)
From Coq Require Import ZArith String List Bool.
From Verif Require Import Num Py Np Spec MNimbus SNimbus MNimbusPlot.
Import ListNotations.

Section Spec.
  Context {N : NumOps}.

  (** A problem with at least two objectives, a name, an ideal, a nadir and (continuous
      problems) a multiplier for each of them, and objective vectors of that length. *)
  Definition plot_wf (p : nb_problem N) (names : list string) (mult ideal nadir : list N) : Prop :=
    nb_wf (fun _ => True) p ideal nadir /\ 2 <= p_nobj p /\ length names = p_nobj p /\
    match p with PMO _ _ _ _ => length mult = p_nobj p | PDisc _ _ _ _ => True end.

  (** The row "minimize": the multipliers of a continuous problem, ones for data. *)
  Definition shown_minimize (p : nb_problem N) (names : list string) (mult : list N) : list N :=
    match p with PMO _ _ _ _ => mult | PDisc _ _ _ _ => map (fun _ => nofZ 1) names end.

  (** The objective vectors a request is about. *)
  Definition shown_objectives (q : nb_request N) : list (list N) :=
    match q with
    | QSave _ objs | QInter _ objs | QPref _ objs => objs
    | QStop _ f => [f]
    | QClass f => [f]
    end.
End Spec.
