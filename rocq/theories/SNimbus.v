(** * NIMBUS: the vocabulary of the properties C29-C37. *)
From Coq Require Import ZArith List Bool.
From Verif Require Import Num Py Np Spec MNimbus.
Import ListNotations.

Section Spec.
  Context {N : NumOps}.
  Notation vec := (list N).
  Notation mat := (list (list N)).

  (** [f] is the objective vector of the decision vector [x]: its evaluation, or
      the row of the data with the same number. *)
  Definition matches (p : nb_problem N) (x f : vec) : Prop :=
    match p with
    | PMO _ evaluate _ _ => f = evaluate x
    | PDisc _ objs decs _ => exists i, nth_error decs i = Some x /\ nth_error objs i = Some f
    end.

  (** The kind of request each phase waits for. *)
  Definition awaits (ph : nb_phase) (q : nb_request N) : Prop :=
    match ph, q with
    | PClassify, QClass _ | PArchive, QSave _ _ | PIntermediate, QInter _ _ | PPreferred, QPref _ _ => True
    | _, _ => False
    end.

  (** Phase, answer, next phase. *)
  Definition advances (ph : nb_phase) (q' : nb_request N) (ph' : nb_phase) : Prop :=
    match ph with
    | PClassify => ph' = PArchive /\ exists sols objs, q' = QSave sols objs
    | PArchive => ph' = PIntermediate /\ exists sols objs, q' = QInter sols objs
    | PIntermediate => (ph' = PArchive /\ exists sols objs, q' = QSave sols objs) \/
                       (ph' = PPreferred /\ exists sols objs, q' = QPref sols objs)
    | PPreferred => (ph' = PClassify /\ exists f, q' = QClass f) \/ (ph' = PEnd /\ exists x f, q' = QStop x f)
    | PEnd => ph' = PEnd
    end.

  (** The rows of [m] at the positions [ix]. *)
  Definition rows_at {A} (m : list A) (ix : list Z) (r : list A) : Prop :=
    Forall2 (fun z a => (0 <= z)%Z /\ nth_error m (Z.to_nat z) = Some a) ix r.

  (** The elements of [m] at positions not in [ix], in order. *)
  Fixpoint others_from {A} (i : nat) (m : list A) (ix : list Z) : list A :=
    match m with
    | [] => []
    | a :: m' => if existsb (Z.eqb (Z.of_nat i)) ix then others_from (S i) m' ix else a :: others_from (S i) m' ix
    end.
  Definition others {A} (m : list A) (ix : list Z) : list A := others_from 0 m ix.

  (** One session continuing another. *)
  Inductive nb_later (av : asf_val) (p : nb_problem N) (ideal nadir : vec)
    : nb_state N -> list (nb_request N) -> nb_state N -> list (nb_request N) -> Prop :=
  | nl_refl s qs : nb_later av p ideal nadir s qs s qs
  | nl_step s qs s1 qs1 q resp s2 out :
      nb_later av p ideal nadir s qs s1 qs1 -> In q qs1 ->
      (forall d, resp = Some d -> nb_validate p ideal nadir q d = Ok tt) ->
      nb_iterate av p ideal nadir q resp s1 = (s2, out) ->
      nb_later av p ideal nadir s qs s2 (match out with Ok q' => q' :: qs1 | Raise _ => qs1 end).

  (** The reference point a classification implies. *)
  Definition implied_level (c : cls) (i : nat) (ideal nadir cur levels : vec) : option N :=
    match c with
    | CImprove => nth_error ideal i
    | CImproveUntil | CImpairUntil => nth_error levels i
    | CAccept => nth_error cur i
    | CFree => nth_error nadir i
    | CBad => Some (nofZ 0)
    end.
  Definition implied_point (nobj : nat) (cl : list cls) (ideal nadir cur levels z : vec) : Prop :=
    length z = nobj /\
    forall i, i < nobj ->
      nth_error z i = match nth_error cl i with
                      | Some c => implied_level c i ideal nadir cur levels
                      | None => Some (nofZ 0)
                      end.

  (** [f] honours the classification of the current objectives [cur]. *)
  Definition honours (cl : list cls) (cur levels f : vec) : Prop :=
    forall i c x, nth_error cl i = Some c -> nth_error f i = Some x ->
      match c with
      | CImprove | CImproveUntil | CAccept => exists y, nth_error cur i = Some y /\ nleb x y = true
      | CImpairUntil => exists y, nth_error levels i = Some y /\ nleb x y = true
      | _ => True
      end.

  (** [(x, f)] is a row of the data, feasible, with the least ASF value among the
      feasible rows. *)
  Definition best_row (av : asf_val) (a : nb_asf N) (ref : vec) (objs decs : mat) (feasible : vec -> Prop) (x f : vec) : Prop :=
    exists i v, nth_error objs i = Some f /\ nth_error decs i = Some x /\ feasible f /\
      av a f ref = Ok v /\
      forall j g w, nth_error objs j = Some g -> feasible g -> av a g ref = Ok w -> nisnan w = false -> nleb v w = true.

  (** The scalarizing functions in the order they are used. *)
  Definition scalarization (ideal nadir : vec) (cl : list cls) (j : nat) : nb_asf N :=
    match j with
    | 0 => AMaxOfTwo nadir ideal (where_cls CImprove cl) (where_cls CImproveUntil cl)
    | 1 => AStom ideal
    | 2 => APoint nadir ideal
    | _ => AGuess nadir ideal (where_cls CFree cl)
    end.

  (** A problem whose vectors have one finite component per objective; [fin] is
      the class of finite numbers of the instance. *)
  Definition nb_wf (fin : N -> Prop) (p : nb_problem N) (ideal nadir : vec) : Prop :=
    0 < p_nobj p /\ length ideal = p_nobj p /\ length nadir = p_nobj p /\
    match p with
    | PMO k evaluate _ _ => forall x, length (evaluate x) = k /\ Forall fin (evaluate x)
    | PDisc k objs decs _ => is_matrix k objs /\ Forall (Forall fin) objs /\ length decs = length objs
    end.

  (** The problem's own constraints hold at [y]. *)
  Definition own_feasible (constr : option (vec -> vec)) (y : vec) : Prop :=
    match constr with None => True | Some k => Forall (fun t => nleb (nofZ 0) t = true) (k y) end.

  (** The constraint function handed to a solver (all components [>= 0]) is
      defined everywhere and says [ok]. *)
  Definition constraint_means (c : option (vec -> res vec)) (ok : vec -> Prop) : Prop :=
    match c with
    | None => forall y, ok y
    | Some c0 => forall y, exists v, c0 y = Ok v /\ (Forall (fun t => nleb (nofZ 0) t = true) v <-> ok y)
    end.

  (** [(x, g)] is what the [j]-th scalarization of a classification yields: the
      solver's answer under the right constraints, or the best data row. *)
  Definition produced (av : asf_val) (p : nb_problem N) (ideal nadir cur_sol cur : vec) (cl : list cls)
             (lv z : vec) (j : nat) (x g : vec) : Prop :=
    let a := scalarization ideal nadir cl j in
    let ref := match j with O => lv | _ => z end in
    match p with
    | PMO _ evaluate constr minimize =>
        g = evaluate x /\
        exists c ok, minimize a ref c cur_sol = Ok (x, ok) /\
          constraint_means c (fun y => own_feasible constr y /\ (j = 0 -> honours cl cur lv (evaluate y)))
    | PDisc _ objs decs _ => best_row av a ref objs decs (fun f => j = 0 -> honours cl cur lv f) x g
    end.

  (** On the numbers of the class [fin] the sign of a difference is exact, and they are not NaN. *)
  Definition sign_exact (fin : N -> Prop) : Prop :=
    (forall x y, fin x -> fin y -> nleb (nofZ 0) (nsub y x) = nleb x y) /\ (forall x, fin x -> nisnan x = false).

  (** An achievement function that is NaN on a row of NaNs (as any arithmetic expression of the row is). *)
  Definition nan_on_nan_rows (av : @asf_val N) : Prop :=
    forall a row ref v, row <> [] -> Forall (fun x => nisnan x = true) row -> av a row ref = Ok v -> nisnan v = true.
  (** An achievement function that never raises and is a number on finite rows. *)
  Definition proper_asf (fin : N -> Prop) (av : @asf_val N) : Prop :=
    forall a row ref, exists v, av a row ref = Ok v /\ (Forall fin row -> nisnan v = false).

  (** The projection of a point to the front with the point method's function. *)
  Definition projected (av : asf_val) (p : nb_problem N) (ideal nadir cur_sol pt x g : vec) : Prop :=
    match p with
    | PMO _ evaluate constr minimize =>
        g = evaluate x /\
        exists c ok, minimize (APoint nadir ideal) (evaluate pt) c cur_sol = Ok (x, ok) /\
          constraint_means c (own_feasible constr)
    | PDisc _ objs decs closest =>
        exists ref, nth_error objs (closest pt) = Some ref /\
          best_row av (APoint nadir ideal) ref objs decs (fun _ => True) x g
    end.

  (** What the solvers are assumed not to do: raise an IndexError of their own. *)
  Definition no_index_errors (av : @asf_val N) (p : nb_problem N) : Prop :=
    match p with
    | PMO _ _ _ minimize => forall a ref c x, minimize a ref c x <> Raise IndexErr
    | PDisc _ objs decs closest =>
        (forall a row ref, av a row ref <> Raise IndexErr) /\ (forall x, closest x < length objs) /\ length decs = length objs
    end.
End Spec.
