(** * NAUTILUS Navigator: vocabulary of the statements about two-objective sessions in any
    arithmetic (C28).  [towards] and [stays_between] are those of SENautilus.v: both
    methods move the current point a 1/n of the way. *)
From Coq Require Import ZArith List Bool.
From Verif Require Import Num Py Np Spec MNavigator SNavigator SENautilus.
Import ListNotations.

Section Any.
  Context {N : NumOps}.
  Variables (asf : @asf_fn N) (F : list (list N)) (ideal nd : list N) (vars : option (list (list N))).

  (** A forward answer without bounds, whose reference point has one component per objective. *)
  Definition plain_answer (d : nv_dict N) : Prop :=
    forward d /\ nd_bounds d = Some (map (fun _ => None) nd) /\
    exists ref, nd_ref d = Some ref /\ length ref = length nd /\ proper_asf asf F ideal nd ref.

  (** Sessions of such answers, each given to the latest request, in which rounding does no
      harm: the point computed on the way from the current navigation point to any front row
      below it lies between the two. *)
  Inductive plain_session : nv_state N -> nv_content N -> Prop :=
  | plain_init c : nv_start (nv_init F ideal nd vars) = NReq c -> plain_session (nv_init F ideal nd vars) c
  | plain_step s c d s' c' :
      plain_session s c -> nv_validate c d = Ok tt -> plain_answer d -> stays_between F (nc_left c) (nc_nav c) ->
      nv_iterate asf (NReq c) (Some d) s = (s', Ok (NReq c')) -> plain_session s' c'.
End Any.
