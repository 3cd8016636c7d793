(** * NAUTILUS and NAUTILUS 2: the vocabulary of the properties C43-C50, C67-C69. *)
From Coq Require Import ZArith List Bool Reals.
From Verif Require Import Num NumXR Py Np Spec MNautilus.
Import ListNotations.

Section Spec.
  Context {N : NumOps}.
  Notation vec := (list N).

  (** A problem with [k] objectives and points of that length. *)
  Definition nt_wf (k : nat) (p : nt_problem N) (v : nt_variant N) (ideal nadir : vec) : Prop :=
    0 < k /\ length ideal = k /\ length nadir = k /\ length (nt_start v nadir) = k /\ forall x, length (np_eval p x) = k.
  (** The optimizers do not raise an IndexError of their own. *)
  Definition nt_no_index_errors (p : nt_problem N) : Prop :=
    (forall w n u q x0, np_min p w n u q x0 <> Raise IndexErr) /\ (forall i e x0, np_ecm p i e x0 <> Raise IndexErr).
  (** The optimizers always answer. *)
  Definition nt_total (p : nt_problem N) : Prop :=
    (forall w n u q x0, exists x, np_min p w n u q x0 = Ok x) /\ (forall i e x0, exists x, np_ecm p i e x0 = Ok x).

  (** The initial request is not answered again after it has been handled. *)
  Definition nt_no_restart (s : nt_state N) (qs : list (nt_request N)) (q : nt_request N) (r : option (nt_dict N)) : Prop :=
    q = NInit -> qs = [NInit].
  (** What NAUTILUS 2 needs in addition: pairs are pairs, and the number of
      remaining iterations is only raised on the first step. *)
  Definition nt_pairs (d : nt_dict N) : Prop :=
    forall l, nd_info d = Some (PPairs l) -> Forall (fun e => length (fst e) = 2) l.
  Definition nt_v2_careful (s : nt_state N) (qs : list (nt_request N)) (q : nt_request N) (r : option (nt_dict N)) : Prop :=
    nt_no_restart s qs q r /\
    forall d, r = Some d -> nt_pairs d /\
      forall o m, q <> NInit -> nd_n d = Some o -> as_int o = Some m -> ns_step s = 1 \/ (m <= ns_left s)%Z.

  (** Answers. *)
  Definition says (o : option (pyval N)) (b : bool) : Prop := exists v, o = Some v /\ truthy v = b.
  (** Step forward with the same preferences / with new ones; the number of iterations stays. *)
  Definition keeps (d : nt_dict N) : Prop := says (nd_back d) false /\ says (nd_prev d) true /\ nd_n d = None.
  Definition renews (d : nt_dict N) : Prop := says (nd_back d) false /\ says (nd_prev d) false /\ nd_n d = None.
  (** [d] asks for [n] iterations in total. *)
  Definition asks (d : nt_dict N) (n : Z) : Prop := exists o, nd_n d = Some o /\ as_int o = Some n.

  (** Directions [ds] (objectives counted from 1) agree with the ratios: the first
      is 1 and delta_j = T * delta_i for every entry ((i, j), T). *)
  Definition int_is (o : pyval N) (i : nat) : Prop := as_int o = Some (Z.of_nat i).

  (** The bounds of a request: the iteration point above, and below the value of
      objective i where the i-th epsilon-constraint problem is solved. *)
  Definition bounded_by (p : nt_problem N) (k : nat) (z lo : vec) : Prop :=
    length lo = k /\ forall i, i < k -> exists x, np_ecm p i (drop_at i z) (np_x0 p) = Ok x /\ nth_error lo i = nth_error (np_eval p x) i.
  (** A step back comes with an explicit short_step; without a short step it
      comes with new preferences. *)
  Definition complete_back (d : nt_dict N) : Prop :=
    says (nd_back d) true -> says (nd_short d) true \/ (says (nd_short d) false /\ says (nd_prev d) false).

  (** Two objectives are linked by a chain of entries. *)
  Inductive linked (l : list (list (pyval N) * pyval N)) : nat -> nat -> Prop :=
  | linked_refl i : linked l i i
  | linked_step i j m oi oj T : linked l i j -> In ([oi; oj], T) l ->
      (int_is oi j /\ int_is oj m \/ int_is oi m /\ int_is oj j) -> linked l i m.
End Spec.

(** A session: each answer is given to the request returned last, and every call
    so far returned a request.  [nt_run g g0 A s qs h]: [qs] are the requests (the
    last one first), the answers satisfied [A], and [h] is a summary of the session
    that starts as [g0] and is updated by [g summary request answer next_request]. *)
Section Session.
  Context {N : NumOps} (p : nt_problem N) (v : nt_variant N) (eps : N) (ideal nadir : list N).
  Inductive nt_run {G} (g : G -> nt_request N -> nt_dict N -> nt_request N -> G) (g0 : G) (A : nt_request N -> nt_dict N -> Prop)
    : nt_state N -> list (nt_request N) -> G -> Prop :=
  | nt_run_start : nt_run g g0 A nt_init [NInit] g0
  | nt_run_step s q qs h d s' q' :
      nt_run g g0 A s (q :: qs) h -> nt_validate v nadir q d = Ok tt -> A q d ->
      nt_iterate p v eps ideal nadir q (Some d) s = (s', Ok (Some q')) -> nt_run g g0 A s' (q' :: q :: qs) (g h q d q').
  (** Without a summary. *)
  Definition nt_path (A : nt_request N -> nt_dict N -> Prop) (s : nt_state N) (qs : list (nt_request N)) : Prop :=
    nt_run (fun _ _ _ _ => tt) tt A s qs tt.
  (** With the iteration points of the steps taken so far, the last one first: a
      step forward adds a point, a step back (short or not) replaces the last one. *)
  Definition trail_next (st : list (list N)) (q : nt_request N) (d : nt_dict N) (q' : nt_request N) : list (list N) :=
    match q, q' with
    | NInit, NReq z _ _ _ => z :: st
    | NReq _ _ _ _, NReq z _ _ _ =>
        match nd_back d with
        | Some b => if truthy b then z :: tl st else z :: st
        | None => z :: st
        end
    | _, _ => st
    end.
  Definition nt_trail (A : nt_request N -> nt_dict N -> Prop) (s : nt_state N) (qs : list (nt_request N)) (st : list (list N)) : Prop :=
    nt_run trail_next [nt_start v nadir] A s qs st.

  (** The first answer asks for [n] iterations, the later ones step forward. *)
  Definition forward_answers (n : Z) (q : nt_request N) (d : nt_dict N) : Prop :=
    (q = NInit -> asks d n) /\ (q <> NInit -> keeps d \/ renews d).
  Definition same_answers (n : Z) (q : nt_request N) (d : nt_dict N) : Prop :=
    (q = NInit -> asks d n) /\ (q <> NInit -> keeps d).
  (** The first answer asks for [n] iterations, the later ones do not change the number. *)
  Definition asks_once (n : Z) (q : nt_request N) (d : nt_dict N) : Prop :=
    (q = NInit -> asks d n) /\ (q <> NInit -> nd_n d = None).
  (** Anything, but NAUTILUS 2 does not change the number of iterations. *)
  Definition any_answers (q : nt_request N) (d : nt_dict N) : Prop :=
    match v with NV1 => True | NV2 _ _ => q <> NInit -> nd_n d = None end.
End Session.

(** The weights of NAUTILUS for the factors [r]: 1 / (r_i (nadir_i - utopian_i)), utopian = ideal - eps. *)
Definition factor_weights (r nadir ideal : list R) (eps : R) (w : list R) : Prop :=
  length w = length nadir /\
  forall i ri ni mi, nth_error r i = Some ri -> nth_error nadir i = Some ni -> nth_error ideal i = Some mi ->
    nth_error w i = Some (1 / (ri * (ni - (mi - eps))))%R.
Definition rsum (l : list R) : R := fold_right Rplus 0%R l.
(** [a + t (b - a)] for real vectors. *)
Definition rbetween (t : R) (a b : list R) : list R := rcomb (1 - t) a t b.

(** ** Which answers NAUTILUS and NAUTILUS 2 accept (C102) *)
Section Accepted.
  Context {N : NumOps}.
  (** The Python value is the number [x]. *)
  Inductive is_value : pyval N -> N -> Prop :=
  | value_int z : is_value (VInt z) (nofZ z)
  | value_bool b : is_value (VBool b) (nofZ (if b then 1 else 0)%Z)
  | value_float x t : is_value (VFloat x t) x.
  (** An entry ((o, ...), ratio): every objective is one of 1..k, the ratio is a number
      that is not zero or negative. *)
  Definition good_entry (k : nat) (e : list (pyval N) * pyval N) : Prop :=
    Forall (fun o => exists z, as_int o = Some z /\ (1 <= z <= Z.of_nat k)%Z) (fst e) /\
    exists r, is_value (snd e) r /\ nleb r (nofZ 0) = false.
  (** One of the entries mentions objective [o]. *)
  Definition mentioned (l : list (list (pyval N) * pyval N)) (o : nat) : Prop :=
    exists e x, In e l /\ In x (fst e) /\ int_is x o.
  (** What NAUTILUS 2 accepts for [k] objectives: at least [k] components none of which is
      zero or negative (method 1), one of them equal to 1 (method 2), or k - 1 entries that
      mention every objective (method 3). *)
  Definition v2_accepts (k : nat) (m : pyval N) (i : nt_info N) : Prop :=
    ((py_eq m 1 = true \/ py_eq m 2 = true) /\
     exists v, i = PArr v /\ Forall (fun x => nleb x (nofZ 0) = false) v /\ k <= length v /\
       (py_eq m 2 = true -> Exists (fun x => neqb x (nofZ 1) = true) v)) \/
    (py_eq m 1 = false /\ py_eq m 2 = false /\ py_eq m 3 = true /\
     exists l, (i = PPairs l \/ (l = [] /\ (i = PArr [] \/ i = PList []))) /\ S (length l) = k /\
       Forall (good_entry k) l /\ forall o, 1 <= o <= k -> mentioned l o).
  (** What an answer must say about the number of iterations: a Python int (or bool), at least 1. *)
  Definition good_count (o : pyval N) : Prop := exists z, as_int o = Some z /\ (1 <= z)%Z.
End Accepted.
