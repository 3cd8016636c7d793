(** * Pareto Navigator: two objects whose data differ by a constant in every objective
    (C116).  Nothing here mentions how the method computes anything.
    [up], [moved]: constants added to a number, to the components of a vector (SNavShift). *)
From Coq Require Import ZArith List Bool Reals.
From Verif Require Import Num NumXR Py Np Spec SNavShift MRpm MParetoNav SParetoNav.
Import ListNotations.

(** Sum of the products of a row with the constants. *)
Definition dot_t (t : list R) (a : list XR) : XR := vsum (zipw nmul a (xv t)).
(** The half space a z + c <= 0 (the row is a followed by c) moved by [t]. *)
Definition moved_plane (t : list R) (row : list XR) : list XR :=
  removelast row ++ [nsub (last row (nofZ 0)) (dot_t t (removelast row))].
(** A linear program over (x, z): right hand sides, bounds and solutions when z is moved by [t]. *)
Definition moved_rhs (t : list R) (A : list (list XR)) (b : list XR) : list XR := zipw (fun row bi => nadd bi (dot_t t (tl row))) A b.
Definition moved_bnds (t : list R) (bs : list (option XR * option XR)) : list (option XR * option XR) :=
  match bs with [] => [] | b0 :: bs' => b0 :: zipw (fun c b => (option_map (up c) (fst b), option_map (up c) (snd b))) t bs' end.
Definition moved_tail (t : list R) (x : list XR) : list XR := match x with [] => [] | a :: z => a :: moved t z end.
(** linprog finds the moved solution for the moved program, with as many numbers as there
    are variables. *)
Definition lp_translates (t : list R) (lp : list XR -> list (list XR) -> list XR -> list (option XR * option XR) -> res (option (list XR))) : Prop :=
  forall A b bnds, length A = length b -> length bnds = S (length t) ->
    let c := nofZ 1 :: repeat (nofZ 0) (length t) in
    lp c A (moved_rhs t A b) (moved_bnds t bnds) = rmap (option_map (moved_tail t)) (lp c A b bnds) /\
    forall x, lp c A b bnds = Ok (Some x) -> length x = S (length t).
(** The hull of the moved points is the moved hull. *)
Definition hull_translates (t : list R) (hull : list (list XR) -> res (list (list XR))) : Prop :=
  forall pts, is_matrix (length t) pts ->
    hull (moved_rows t pts) = rmap (map (moved_plane t)) (hull pts) /\ forall eqs, hull pts = Ok eqs -> is_matrix (S (length t)) eqs.
Definition moved_pn_env (t : list R) (e1 e2 : pn_env XR) : Prop :=
  pe_hull e2 = pe_hull e1 /\ pe_lp e2 = pe_lp e1 /\ hull_translates t (pe_hull e1) /\ lp_translates t (pe_lp e1) /\
  match pe_prob e1, pe_prob e2 with
  | PMO ev1 min1, PMO ev2 min2 => (forall x, length (ev1 x) = length t /\ ev2 x = moved t (ev1 x)) /\ forall u q, length q = length t -> min2 u (moved t q) = min1 u q
  | PDisc o1 d1, PDisc o2 d2 => is_matrix (length t) o1 /\ o2 = moved_rows t o1 /\ d2 = d1
  | _, _ => False
  end.

(** Requests and answers in the moved objectives. *)
Definition moved_pt (t : list R) (c : pn_point XR) : pn_point XR := match c with CVec v => CVec (moved t v) | CScalar x => CScalar x end.
Definition moved_pn (t : list R) (q : pn_request XR) : pn_request XR :=
  match q with
  | PInit i n pos => PInit (moved t i) (moved t n) (moved_rows t pos)
  | PReq c i n => PReq (moved_pt t c) (moved t i) (moved t n)
  | PSol c x f => PSol (moved_pt t c) x (moved t f)
  | PStop c x f => PStop (moved_pt t c) x (moved t f)
  end.
Definition moved_arr (t : list R) (a : rp_arr XR) : rp_arr XR := match a with RArr q => RArr (moved t q) | _ => a end.
Definition moved_pn_answer (t : list R) (d : pn_dict XR) : pn_dict XR :=
  MkPD (option_map (moved_arr t) (pd_ref d)) (pd_pref d) (pd_speed d) (pd_show d) (pd_back d) (pd_class d) (pd_sat d).
(** The navigation starts from one of the solutions shown (not from a reference point) and
    a classification names every objective. *)
Definition pn_tame (k : nat) (q : pn_request XR) (d : pn_dict XR) : Prop :=
  match q with PInit _ _ _ => pd_ref d = None | _ => forall l, pd_class d = Some l -> length l = k end.

(** Any history of two objects, one with the data, the other with the moved data, in which
    corresponding requests get corresponding answers. *)
Inductive pn_shifted (t : list R) (e1 e2 : pn_env XR) (ideal0 nadir0 : list XR) (given : option (list (list XR)))
  : pn_state XR -> pn_state XR -> list (pn_request XR * pn_request XR) -> Prop :=
| pn_shifted_init s1 s2 :
    pn_ctor e1 ideal0 nadir0 given = Ok s1 ->
    pn_ctor e2 (moved t ideal0) (moved t nadir0) (option_map (moved_rows t) given) = Ok s2 ->
    pn_shifted t e1 e2 ideal0 nadir0 given s1 s2 []
| pn_shifted_start s1 s2 qs :
    pn_shifted t e1 e2 ideal0 nadir0 given s1 s2 qs -> pn_shifted t e1 e2 ideal0 nadir0 given s1 s2 ((pn_start s1, pn_start s2) :: qs)
| pn_shifted_step s1 s2 qs q1 q2 resp s1' out1 s2' out2 :
    pn_shifted t e1 e2 ideal0 nadir0 given s1 s2 qs -> In (q1, q2) qs ->
    (forall d, resp = Some d -> pn_validate q1 d = Ok tt /\ pn_tame (length t) q1 d) ->
    pn_iterate e1 q1 resp s1 = (s1', out1) ->
    pn_iterate e2 q2 (option_map (moved_pn_answer t) resp) s2 = (s2', out2) ->
    pn_shifted t e1 e2 ideal0 nadir0 given s1' s2' (match out1, out2 with Ok q1', Ok q2' => (q1', q2') :: qs | _, _ => qs end).
