(** * Model of the plot requests of synchronous NIMBUS: desdeo_mcdm/interactive/NIMBUS.py

    Every handler returns a pair: the next request and a SimplePlotRequest with two
    pandas DataFrames.  Here the handlers of MNimbus.v are run together with the
    construction of that pair, in the order of the code.  Simplifications: the
    message of a plot request is not modelled; a DataFrame is its column names and
    its rows. *)
From Coq Require Import ZArith String List Bool Lia.
From Verif Require Import Num Py Np MNimbus.
Import ListNotations.

Section Plots.
  Context {N : NumOps}.
  Notation vec := (list N).
  Notation mat := (list (list N)).

  (** SimplePlotRequest: the column names, the rows "minimize", "ideal" and "nadir"
      of dimensions_data, and the rows of data. *)
  (* /repo/desdeo_mcdm: NIMBUS.py:473-490 *)
  Record nb_plot := MkPlot {
    pl_names : list string; pl_minimize : vec; pl_ideal : vec; pl_nadir : vec; pl_data : mat }.

  (** What pd.DataFrame is given as data: a list of arrays, or an array.  The array
      of an empty list has one dimension: pandas takes it for one empty column. *)
  (* /repo/desdeo_mcdm: NIMBUS.py:481, 488 (the argument of pd.DataFrame) *)
  Inductive nb_frame_arg := FList (rows : mat) | FArrayOf (rows : mat) | FArray2 (rows : mat).
  (** [pd.DataFrame(objectives, columns=names)]: ValueError unless every row has as
      many entries as there are names. *)
  (* /repo/desdeo_mcdm: NIMBUS.py:481, 488 *)
  Definition nb_frame (names : list string) (a : nb_frame_arg) : res mat :=
    match a with
    | FArrayOf [] => if Nat.eqb (length names) 1 then Ok [] else Raise ValueErr
    | FList rows | FArrayOf rows | FArray2 rows =>
        if forallb (fun r => Nat.eqb (length r) (length names)) rows then Ok rows else Raise ValueErr
    end.
  (** [frame.loc[...] = row]: ValueError unless there is one entry per column. *)
  (* /repo/desdeo_mcdm: NIMBUS.py:477-479, 484-486 *)
  Definition nb_loc (names : list string) (v : vec) : res vec :=
    if Nat.eqb (length v) (length names) then Ok v else Raise ValueErr.

  Section Method.
    Context (av : @asf_val N) (p : nb_problem N) (names : list string) (multiplier ideal nadir : vec).

    (** create_plot_request. *)
    (* /repo/desdeo_mcdm: NIMBUS.py:463-492 *)
    Definition nb_create_plot (a : nb_frame_arg) : res nb_plot :=
      do m <- nb_loc names match p with
                           | PMO _ _ _ _ => multiplier
                           | PDisc _ _ _ _ => map (fun _ => nofZ 1) names
                           end;
      do i <- nb_loc names ideal;
      do n <- nb_loc names nadir;
      do d <- nb_frame names a;
      Ok (MkPlot names m i n d).

    (** start. *)
    (* /repo/desdeo_mcdm: NIMBUS.py:448-461 *)
    Definition nb_start_p (s : nb_state N) : nb_request N * option nb_plot := (nb_request_cls s, None).

    (** handle_classification_request, with calculate_new_solutions. *)
    (* /repo/desdeo_mcdm: NIMBUS.py:494-526, 941-956 *)
    Definition nb_handle_cls_p (s : nb_state N) (d : nb_dict N) : res (nb_request N * option nb_plot) :=
      do q <- nb_handle_cls av p ideal nadir s d;
      match q with
      | QSave sols objs => do pl <- nb_create_plot (FList objs); Ok (QSave sols objs, Some pl)
      | _ => Raise TypeErr          (* never *)
      end.

    (** handle_save_request, with save_solutions_to_archive. *)
    (* /repo/desdeo_mcdm: NIMBUS.py:528-546, 734-751 *)
    Definition nb_save_p (sols objs : mat) (ix : list Z) : SE (nb_state N) (nb_request N * option nb_plot) :=
      q <-- nb_save sols objs ix ;;
      match q with
      | QInter sols' objs' => pl <-- lift (nb_create_plot (FList objs')) ;; sret (QInter sols' objs', Some pl)
      | _ => sraise TypeErr          (* never *)
      end.

    (** handle_intermediate_solutions_request, with compute_intermediate_solutions and
        request_most_preferred_solution. *)
    (* /repo/desdeo_mcdm: NIMBUS.py:548-573, 616-639, 668-671, 709-715 *)
    Definition nb_handle_inter_p (s : nb_state N) (sols objs : mat) (d : nb_dict N) : res (nb_request N * option nb_plot) :=
      do q <- nb_handle_inter av p ideal nadir s sols objs d;
      match q with
      | QSave sols' objs' => do pl <- nb_create_plot (FArray2 objs'); Ok (QSave sols' objs', Some pl)
      | QPref sols' objs' => do pl <- nb_create_plot (FArrayOf objs'); Ok (QPref sols' objs', Some pl)
      | _ => Raise TypeErr          (* never *)
      end.

    (** handle_most_preferred_request, with request_stop. *)
    (* /repo/desdeo_mcdm: NIMBUS.py:457-461, 575-614 *)
    Definition nb_handle_pref_p (sols objs : mat) (d : nb_dict N) : SE (nb_state N) (nb_request N * option nb_plot) :=
      q <-- nb_handle_pref sols objs d ;;
      match q with
      | QStop x f => pl <-- lift (nb_create_plot (FArray2 [f])) ;; sret (QStop x f, Some pl)
      | QClass f => sret (QClass f, None)
      | _ => sraise TypeErr          (* never *)
      end.

    (** iterate. *)
    (* /repo/desdeo_mcdm: NIMBUS.py:980-1059 *)
    Definition nb_iterate_p (q : nb_request N) (resp : option (nb_dict N)) : SE (nb_state N) (nb_request N * option nb_plot) :=
      s <-- sget ;;
      match bs_phase s with
      | PClassify =>
          match q with
          | QClass _ =>
              d <-- lift (resp_ resp) ;;
              r <-- lift (nb_handle_cls_p s d) ;;
              smod (w_phase PArchive) ;;; sret r
          | _ => sraise MethodExn
          end
      | PArchive =>
          match q with
          | QSave sols objs =>
              d <-- lift (resp_ resp) ;;
              ix <-- lift (key (bd_indices d)) ;;
              r <-- nb_save_p sols objs ix ;;
              smod (w_phase PIntermediate) ;;; sret r
          | _ => sraise MethodExn
          end
      | PIntermediate =>
          match q with
          | QInter sols objs =>
              d <-- lift (resp_ resp) ;;
              r <-- lift (nb_handle_inter_p s sols objs d) ;;
              match fst r with
              | QSave _ _ => smod (w_phase PArchive)
              | QPref _ _ => smod (w_phase PPreferred)
              | _ => sret tt
              end ;;; sret r
          | _ => sraise MethodExn
          end
      | PPreferred =>
          match q with
          | QPref sols objs =>
              d <-- lift (resp_ resp) ;;
              r <-- nb_handle_pref_p sols objs d ;;
              match fst r with
              | QStop _ _ => smod (w_phase PEnd)
              | QClass _ => smod (w_phase PClassify)
              | _ => sret tt
              end ;;; sret r
          | _ => sraise MethodExn
          end
      | PEnd => sret (q, None)
      end.

    (** Any history: every request returned so far may be iterated (again), without a
        response or with any response its validator accepts; the list holds the
        requests with their plots, the last one first. *)
    (* /repo/desdeo_mcdm: NIMBUS.py:354-1059 (all histories of one object) *)
    Inductive nb_reach_p (s0 : nb_state N) : nb_state N -> list (nb_request N * option nb_plot) -> Prop :=
    | nb_reach_p_init : nb_reach_p s0 s0 [nb_start_p s0]
    | nb_reach_p_step s qs q pl resp s' out :
        nb_reach_p s0 s qs -> In (q, pl) qs ->
        (forall d, resp = Some d -> nb_validate p ideal nadir q d = Ok tt) ->
        nb_iterate_p q resp s = (s', out) ->
        nb_reach_p s0 s' (match out with Ok q' => q' :: qs | Raise _ => qs end).
  End Method.
End Plots.
Arguments nb_plot : clear implicits.
