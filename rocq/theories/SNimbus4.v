(** * NIMBUS: sessions compared (C110). *)
From Coq Require Import ZArith String List Bool.
From Verif Require Import Num Py Np MNimbus MNimbusPlot.
Import ListNotations.

Section Spec.
  Context {N : NumOps}.
  Notation vec := (list N).
  Notation mat := (list (list N)).

  (** What a session returns for a sequence of answers.  Each answer is given to the
      last request; [tr] translates the answers.  After an exception (of the validator
      or of iterate) the next answer is given to the same request. *)
  Fixpoint nb_play (av : asf_val) (p : nb_problem N) (ideal nadir : vec) (tr : nb_request N -> nb_dict N -> nb_dict N)
      (q : nb_request N) (ds : list (nb_dict N)) (s : nb_state N) : list (res (nb_request N)) :=
    match ds with
    | [] => []
    | d :: ds' =>
        match nb_validate p ideal nadir q (tr q d) with
        | Raise x => Raise x :: nb_play av p ideal nadir tr q ds' s
        | Ok _ =>
            let (s', out) := nb_iterate av p ideal nadir q (Some (tr q d)) s in
            out :: nb_play av p ideal nadir tr (match out with Ok q' => q' | Raise _ => q end) ds' s'
        end
    end.
  (** The same with the method as it is, making the plots (which C91 describes): the
      requests it returns. *)
  Fixpoint nb_play_p (av : asf_val) (p : nb_problem N) (names : list string) (mult ideal nadir : vec) (tr : nb_request N -> nb_dict N -> nb_dict N)
      (q : nb_request N) (ds : list (nb_dict N)) (s : nb_state N) : list (res (nb_request N)) :=
    match ds with
    | [] => []
    | d :: ds' =>
        match nb_validate p ideal nadir q (tr q d) with
        | Raise x => Raise x :: nb_play_p av p names mult ideal nadir tr q ds' s
        | Ok _ =>
            let (s', out) := nb_iterate_p av p names mult ideal nadir q (Some (tr q d)) s in
            rmap fst out :: nb_play_p av p names mult ideal nadir tr (match out with Ok q' => fst q' | Raise _ => q end) ds' s'
        end
    end.
  Definition as_given (q : nb_request N) (d : nb_dict N) : nb_dict N := d.

  (** Indices that count [m] further solutions in front of the list (negative ones stay negative). *)
  Definition further (m : nat) (z : Z) : Z := if (z <? 0)%Z then z else (z + Z.of_nat m)%Z.
  Definition further_in (m : nat) (q : nb_request N) (d : nb_dict N) : nb_dict N :=
    match q with
    | QInter _ _ => MkBD (bd_cls d) (bd_levels d) (bd_nsol d) (option_map (map (further m)) (bd_indices d)) (bd_ndes d) (bd_index d) (bd_continue d)
    | QPref _ _ => MkBD (bd_cls d) (bd_levels d) (bd_nsol d) (bd_indices d) (bd_ndes d)
        (match bd_index d with Some (VInt z) => Some (VInt (further m z)) | i => i end) (bd_continue d)
    | _ => d
    end.
  (** A request that lists the solutions [sols], [objs] before the others. *)
  Definition listing_first (sols objs : mat) (q : nb_request N) : nb_request N :=
    match q with
    | QInter ss os => QInter (sols ++ ss) (objs ++ os)
    | QPref ss os => QPref (sols ++ ss) (objs ++ os)
    | _ => q
    end.
  (** A method object with the same current solution and nothing in its archive. *)
  Definition emptied (s : nb_state N) : nb_state N := MkBS (bs_sol s) (bs_obj s) [] [] (bs_phase s).
End Spec.
