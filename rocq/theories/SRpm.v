(** * Reference Point Method: the vocabulary of the properties C38-C42. *)
From Coq Require Import ZArith List Bool Reals.
From Verif Require Import Num NumXR Py Np Spec MAsf MRpm.
Import ListNotations.

Section Spec.
  Context {N : NumOps}.
  Notation vec := (list N).
  Notation mat := (list (list N)).

  (** [f] is the objective vector of the decision vector [x]. *)
  Definition rp_matches (p : rp_problem N) (x f : vec) : Prop :=
    match p with
    | RMO evaluate _ _ _ => f = evaluate x
    | RDisc objs decs => exists i, nth_error decs i = Some x /\ nth_error objs i = Some f
    end.

  (** [(x, f)] is what minimizing the achievement function with weights [w] for
      the reference point [q] gives: the solver's answer, or the data row with the
      least value. *)
  Definition rp_solves (p : rp_problem N) (rho : N) (w nadir utopian q x f : vec) : Prop :=
    match p with
    | RMO evaluate _ x0 minimize => minimize w nadir utopian q x0 = Ok x /\ f = evaluate x
    | RDisc objs decs =>
        exists i v, nth_error decs i = Some x /\ nth_error objs i = Some f /\
          rp_asf rho w nadir utopian f q = Ok v /\ nisnan v = false /\
          forall g v', In g objs -> rp_asf rho w nadir utopian g q = Ok v' -> nisnan v' = false -> nleb v v' = true
    end.

  (** A problem with [k] objectives. *)
  Definition rp_wf (k : nat) (p : rp_problem N) (ideal nadir : vec) : Prop :=
    0 < k /\ length ideal = k /\ length nadir = k /\
    match p with
    | RMO evaluate _ _ _ => forall x, length (evaluate x) = k
    | RDisc objs decs => is_matrix k objs /\ length decs = length objs /\ objs <> []
    end.

  (** The solver does not raise an IndexError of its own. *)
  Definition rp_no_index_errors (p : rp_problem N) : Prop :=
    match p with RMO _ _ _ minimize => forall w n u q x0, minimize w n u q x0 <> Raise IndexErr | RDisc _ _ => True end.

  (** The [i]-th perturbed reference point adds [d] to the [i]-th component (as
      computed: [d * 1] is added to it and [d * 0] to the others). *)
  Definition rp_perturbed (q : vec) (d : N) (pqs : mat) : Prop :=
    length pqs = length q /\
    forall i pq, nth_error pqs i = Some pq ->
      length pq = length q /\
      forall j y, nth_error q j = Some y ->
        nth_error pq j = Some (nadd y (nmul d (if Nat.eqb j i then nofZ 1 else nofZ 0))).

  (** The answer asks for another iteration with the reference point [q]. *)
  Definition rp_continues (r : rp_request N) (d : rp_dict N) (q : vec) : Prop :=
    rd_ref d = Some (RArr q) /\
    match r with RInit => True | RReq _ _ => rp_satisfied d = false | RStop _ _ => False end.
  (** The decision maker answers the newest request each time; the list of what iterate
      gives, up to the first exception (of the response setter or of iterate). *)
  Fixpoint rp_play (p : rp_problem N) (rho eps : N) (ideal nadir : vec) (r : rp_request N) (ds : list (rp_dict N)) (s : rp_state N)
    : list (res (rp_request N)) :=
    match ds with
    | [] => []
    | d :: ds' =>
        match rp_validate ideal nadir r d with
        | Raise e => [Raise e]
        | Ok _ => let '(s', out) := rp_iterate p rho eps ideal nadir r (Some d) s in
                  out :: match out with Ok r' => rp_play p rho eps ideal nadir r' ds' s' | Raise _ => [] end
        end
    end.
End Spec.

(** [q + d e_i] for real vectors. *)
Definition rbump (q : list R) (d : R) (i : nat) : list R :=
  map (fun jy => if Nat.eqb (fst jy) i then snd jy + d else snd jy)%R (combine (seq 0 (length q)) q).
