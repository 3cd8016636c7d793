(** * Synchronous NIMBUS: two objects whose data differ by a constant in every objective
    (C115).  Nothing here mentions how the method computes anything.
    [up], [moved]: constants added to a number, to the components of a vector (SNavShift). *)
From Coq Require Import ZArith List Bool Reals.
From Verif Require Import Num NumXR Py Np Spec SNavShift MNimbus SNimbus.
Import ListNotations.

Definition moved_asf (t : list R) (a : nb_asf XR) : nb_asf XR :=
  match a with
  | AMaxOfTwo n i lt lte => AMaxOfTwo (moved t n) (moved t i) lt lte
  | AStom i => AStom (moved t i)
  | APoint n i => APoint (moved t n) (moved t i)
  | AGuess n i ex => AGuess (moved t n) (moved t i) ex
  end.
(** A request and an answer in the moved objectives. *)
Definition moved_nb (t : list R) (q : nb_request XR) : nb_request XR :=
  match q with
  | QClass f => QClass (moved t f)
  | QSave sols objs => QSave sols (moved_rows t objs)
  | QInter sols objs => QInter sols (moved_rows t objs)
  | QPref sols objs => QPref sols (moved_rows t objs)
  | QStop x f => QStop x (moved t f)
  end.
Definition moved_classes (t : list R) (d : nb_dict XR) : nb_dict XR :=
  MkBD (bd_cls d) (option_map (moved t) (bd_levels d)) (bd_nsol d) (bd_indices d) (bd_ndes d) (bd_index d) (bd_continue d).

Section Data.
  (** Ideal and nadir, and the distance [delta] from the ideal to the utopian point. *)
  Context (t : list R) (delta : R) (ideal nadir : list R).
  Definition proper_data : Prop :=
    length ideal = length t /\ length nadir = length t /\
    forall i a b, nth_error ideal i = Some a -> nth_error nadir i = Some b -> (a - delta)%R <> b.
  (** The scalarized problems that are not divided by zero: the reference point of a STOM
      function nowhere has the utopian value, that of a GUESS function nowhere has the nadir
      value (except in the objectives left out). *)
  Definition regular (a : nb_asf XR) (z : list XR) : Prop :=
    match a with
    | AMaxOfTwo n i _ _ | APoint n i => n = xv nadir /\ i = xv ideal /\ length z = length t
    | AStom i => i = xv ideal /\ exists r, z = xv r /\ length r = length t /\
        forall j x y, nth_error r j = Some x -> nth_error ideal j = Some y -> x <> (y - delta)%R
    | AGuess n i ex => n = xv nadir /\ i = xv ideal /\ exists r, z = xv r /\ length r = length t /\
        forall j x y, ~ In j ex -> nth_error r j = Some x -> nth_error nadir j = Some y -> x <> y
    end.
  (** Constants in the objectives change the values of an achievement function by a constant. *)
  Definition changes_by_a_constant (av : @asf_val XR) : Prop :=
    forall a z, regular a z -> exists c, forall f, length f = length t ->
      av (moved_asf t a) (moved t f) (moved t z) = rmap (up c) (av a f z).
  Definition same_constraint (c1 c2 : option (list XR -> res (list XR))) : Prop :=
    match c1, c2 with None, None => True | Some f, Some g => forall x, g x = f x | _, _ => False end.
  (** The objectives of [p2] are those of [p1] plus the constants; the minimizer finds the
      same decision vectors for the moved achievement functions. *)
  Definition moved_nb_problem (p1 p2 : nb_problem XR) : Prop :=
    match p1, p2 with
    | PMO n1 ev1 co1 min1, PMO n2 ev2 co2 min2 =>
        n1 = length t /\ n2 = n1 /\ co2 = co1 /\ (forall x, length (ev1 x) = length t /\ ev2 x = moved t (ev1 x)) /\
        forall a z c1 c2 x0, regular a z -> same_constraint c1 c2 ->
          min2 (moved_asf t a) (moved t z) c2 x0 = min1 a z c1 x0
    | PDisc n1 objs1 decs1 cl1, PDisc n2 objs2 decs2 cl2 =>
        n1 = length t /\ n2 = n1 /\ is_matrix (length t) objs1 /\ objs2 = moved_rows t objs1 /\ decs2 = decs1 /\ cl2 = cl1
    | _, _ => False
    end.
  (** A classification of all objectives in which no implied level is the utopian value or,
      unless the objective is free, the nadir value. *)
  Definition regular_answer (cur : list XR) (d : nb_dict XR) : Prop :=
    forall cl lv, bd_cls d = Some cl -> bd_levels d = Some lv ->
      length cl = length t /\
      forall j c x y, nth_error cl j = Some c -> nth_error ideal j = Some x -> nth_error nadir j = Some y ->
        exists r, implied_level c j (xv ideal) (xv nadir) cur lv = Some (Fin r : XR) /\ r <> (x - delta)%R /\ (c <> CFree -> r <> y).

  (** Any history of two objects, one with the data, the other with the moved data, in
      which corresponding requests get corresponding answers. *)
  Inductive nb_shifted (av : @asf_val XR) (p1 p2 : nb_problem XR) (start : option (list XR)) (x0 : list XR)
    : nb_state XR -> nb_state XR -> list (nb_request XR * nb_request XR) -> Prop :=
  | nb_shifted_init s1 s2 :
      nb_init av p1 (xv ideal) (xv nadir) start x0 = Ok s1 ->
      nb_init av p2 (moved t (xv ideal)) (moved t (xv nadir)) (option_map (moved t) start) x0 = Ok s2 ->
      nb_shifted av p1 p2 start x0 s1 s2 [(nb_start s1, nb_start s2)]
  | nb_shifted_step s1 s2 qs q1 q2 resp s1' out1 s2' out2 :
      nb_shifted av p1 p2 start x0 s1 s2 qs -> In (q1, q2) qs ->
      (forall d, resp = Some d -> nb_validate p1 (xv ideal) (xv nadir) q1 d = Ok tt /\ regular_answer (bs_obj s1) d) ->
      nb_iterate av p1 (xv ideal) (xv nadir) q1 resp s1 = (s1', out1) ->
      nb_iterate av p2 (moved t (xv ideal)) (moved t (xv nadir)) q2 (option_map (moved_classes t) resp) s2 = (s2', out2) ->
      nb_shifted av p1 p2 start x0 s1' s2' (match out1, out2 with Ok q1', Ok q2' => (q1', q2') :: qs | _, _ => qs end).
End Data.

(** A minimizer that computes the achievement function at the objective vectors of decision
    vectors, and one that finds the same point when a constant is added to what it
    minimizes. *)
Definition nb_solver := (list XR -> res XR) -> option (list XR -> res (list XR)) -> list XR -> res (list XR * bool).
Definition nb_solved_by (av : @asf_val XR) (solve : nb_solver) (ev : list XR -> list XR)
  : nb_asf XR -> list XR -> option (list XR -> res (list XR)) -> list XR -> res (list XR * bool) :=
  fun a z c x0 => solve (fun x => av a (ev x) z) c x0.
Definition nb_ignores_a_constant (solve : nb_solver) : Prop :=
  forall c f g h h' x0, (forall x, g x = rmap (up c) (f x)) -> same_constraint h h' -> solve g h' x0 = solve f h x0.
