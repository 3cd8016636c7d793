(** * Pareto Navigator: the vocabulary of the properties C51-C55, C72-C78. *)
From Coq Require Import ZArith List Bool Reals.
From Verif Require Import Num NumXR Py Np Spec MRpm MParetoNav.
Import ListNotations.

Section Spec.
  Context {N : NumOps}.
  Notation vec := (list N).
  Notation mat := (list (list N)).

  (** [k] objectives everywhere, at least one solution; the convex hull has equations with k + 1 numbers. *)
  Definition pn_wf (k : nat) (e : pn_env N) (ideal0 nadir0 : vec) (given : option mat) : Prop :=
    2 <= k /\ length ideal0 = k /\ length nadir0 = k /\ (forall m, given = Some m -> m <> [] /\ is_matrix k m) /\
    (forall pts eqs, pe_hull e pts = Ok eqs -> is_matrix (S k) eqs) /\
    match pe_prob e with PMO evaluate _ => forall x, length (evaluate x) = k | PDisc objs decs => objs <> [] /\ is_matrix k objs end.
  (** No NaN among the objective values. *)
  Definition pn_numbers (e : pn_env N) (ideal0 nadir0 : vec) (given : option mat) : Prop :=
    nan_free ideal0 /\ nan_free nadir0 /\ (forall m, given = Some m -> nan_free_m m) /\
    match pe_prob e with PMO evaluate _ => forall x, nan_free (evaluate x) | PDisc objs _ => nan_free_m objs end.

  (** What the decision maker says. *)
  Definition pn_back (d : pn_dict N) : bool := is_true (pd_back d).
  Definition pn_shows (d : pn_dict N) : bool := is_true (pd_show d).

  (** Sessions: each answer is given to the request returned last and every call
      returned a request; [h] is a summary that starts as [g0] and is updated by
      [g summary request answer next_request]. *)
  Inductive pn_run (e : pn_env N) {G} (g : G -> pn_request N -> pn_dict N -> pn_request N -> G) (g0 : G)
      (A : pn_request N -> pn_dict N -> Prop) (s0 : pn_state N) : pn_state N -> list (pn_request N) -> G -> Prop :=
  | pn_run_start : pn_run e g g0 A s0 s0 [pn_start s0] g0
  | pn_run_step s q qs h d s' q' :
      pn_run e g g0 A s0 s (q :: qs) h -> pn_validate q d = Ok tt -> A q d ->
      pn_iterate e q (Some d) s = (s', Ok q') -> pn_run e g g0 A s0 s' (q' :: q :: qs) (g h q d q').

  (** The solution [(x, f)] belongs to the approximate solution [c]: it minimizes
      max_i (f_i - c_i) over the problem. *)
  Definition pn_projects (e : pn_env N) (c : pn_point N) (x f : vec) : Prop :=
    match pe_prob e with
    | PMO evaluate minimize => exists v, c = CVec v /\ minimize false v = Ok (Some x) /\ f = evaluate x
    | PDisc objs decs => exists i v, nth_error decs i = Some x /\ nth_error objs i = Some f /\
        simple_asf f c = Ok v /\ nisnan v = false /\
        forall g v', In g objs -> simple_asf g c = Ok v' -> nisnan v' = false -> nleb v v' = true
    end.
End Spec.

(** Sum of the products. *)
Fixpoint rdot (a b : list R) : R := match a, b with x :: a', y :: b' => (x * y + rdot a' b')%R | _, _ => 0%R end.

(** A linear program over the reals: minimize c x subject to A x <= b and bounds. *)
Definition within (lu : option R * option R) (x : R) : Prop :=
  (forall l, fst lu = Some l -> (l <= x)%R) /\ (forall u, snd lu = Some u -> (x <= u)%R).
Definition feasible (A : list (list R)) (b : list R) (bnds : list (option R * option R)) (x : list R) : Prop :=
  length x = length bnds /\ Forall2 within bnds x /\ Forall2 (fun row bi => (rdot row x <= bi)%R) A b.
Definition optimal (c : list R) A b bnds (x : list R) : Prop :=
  feasible A b bnds x /\ forall y, feasible A b bnds y -> (rdot c x <= rdot c y)%R.
Definition xbound (lu : option R * option R) : option XR * option XR :=
  (option_map (fun r => Fin r : XR) (fst lu), option_map (fun r => Fin r : XR) (snd lu)).
(** linprog finds an optimal solution when it reports success. *)
Definition lp_exact (lp : list XR -> list (list XR) -> list XR -> list (option XR * option XR) -> res (option (list XR))) : Prop :=
  forall c A b bnds x, lp (xv c) (xm A) (xv b) (map xbound bnds) = Ok (Some x) -> exists r, x = xv r /\ optimal c A b bnds r.

(** Inside the polyhedron given by hull equations: a z + a_0 <= 0 for each row (a, a_0). *)
Definition inside (eqs : list (list R)) (z : list R) : Prop :=
  forall a a0, In (a ++ [a0]) eqs -> (rdot a z + a0 <= 0)%R.
(** The approximation: inside the hull and between ideal and nadir. *)
Definition approximation (eqs : list (list R)) (ideal nadir z : list R) : Prop :=
  inside eqs z /\ rvle ideal z /\ rvle z nadir.
(** [t] bounds the deviations (z_i - q_i) / (nadir_i - ideal_i). *)
Definition deviation_le (ideal nadir q z : list R) (t : R) : Prop :=
  forall i zi qi ni mi, nth_error z i = Some zi -> nth_error q i = Some qi -> nth_error nadir i = Some ni -> nth_error ideal i = Some mi ->
    ((zi - qi) / (ni - mi) <= t)%R.
(** [z] is a point of the approximation with the least maximal deviation from [q]:
    any bound for another point is one for [z]. *)
Definition closest (eqs : list (list R)) (ideal nadir q z : list R) : Prop :=
  approximation eqs ideal nadir z /\
  forall z' t, approximation eqs ideal nadir z' -> deviation_le ideal nadir q z' t -> deviation_le ideal nadir q z t.

(** Finite real data: [ideal] below [nadir] at the start, real points, hull equations
    and objective values. *)
Definition pn_real (e : pn_env XR) (s0 : pn_state XR) (ideal nadir : list R) : Prop :=
  ps_ideal s0 = xv ideal /\ ps_nadir s0 = xv nadir /\ Forall2 Rlt ideal nadir /\ (exists r, ps_pos s0 = xm r) /\
  (forall pts eqs, pe_hull e pts = Ok eqs -> exists r, eqs = xm r) /\
  match pe_prob e with PMO evaluate _ => forall x, exists r, evaluate x = xv r | PDisc objs _ => exists r, objs = xm r end.

(** The step parameter: the last speed answer over 50 (5 speeds, divided by 10),
    with the sign of the last movement. *)
Record pn_gear := MkGear { g_speed : Z; g_sign : Z }.
Definition next_gear {N : NumOps} (g : pn_gear) (q : pn_request N) (d : pn_dict N) (q' : pn_request N) : pn_gear :=
  let v := match pd_speed d with Some (VInt z) => z | _ => g_speed g end in
  match q, q' with
  | PInit _ _ _, _ => MkGear v 1
  | PReq _ _ _, PReq _ _ _ =>
      MkGear v (if pn_back d then match pd_speed d with Some _ => -1 | None => - g_sign g end else 1)%Z
  | _, _ => g
  end.
(** Speeds are given as integers. *)
Definition int_speeds {N : NumOps} (q : pn_request N) (d : pn_dict N) : Prop :=
  forall v, pd_speed d = Some v -> exists z, v = VInt z.
(** Answers with finite reference points, integer speeds and one class per objective. *)
Definition pn_answers (k : nat) (q : pn_request XR) (d : pn_dict XR) : Prop :=
  (forall a, pd_ref d = Some a -> exists r, a = RArr (xv r)) /\ int_speeds q d /\
  (forall l, pd_class d = Some l -> length l = k).
(** The navigation starts from one of the given solutions. *)
Definition pn_prefers {N : NumOps} (q : pn_request N) (d : pn_dict N) : Prop :=
  match q with PInit _ _ _ => pd_ref d = None | _ => True end.
(** The scalar optimizer returns real vectors. *)
Definition pn_real_decisions (e : pn_env XR) : Prop :=
  match pe_prob e with PMO _ minimize => forall b q x, minimize b q = Ok (Some x) -> exists r, x = xv r | PDisc _ _ => True end.

(** The convex hull of [pts]. *)
Fixpoint wsum (k : nat) (ws : list R) (pts : list (list R)) : list R :=
  match ws, pts with w :: ws', p :: pts' => rcomb w p 1 (wsum k ws' pts') | _, _ => repeat 0%R k end.
Fixpoint rsum (l : list R) : R := match l with [] => 0%R | x :: l' => (x + rsum l')%R end.
Definition in_hull (k : nat) (pts : list (list R)) (z : list R) : Prop :=
  exists ws, length ws = length pts /\ Forall (Rle 0) ws /\ rsum ws = 1%R /\ z = wsum k ws pts.
(** ConvexHull describes the convex hull; linprog solves every program that has a
    feasible point and a bound for its cost. *)
Definition hull_exact (k : nat) (hull : list (list XR) -> res (list (list XR))) : Prop :=
  forall pts eqs, hull (xm pts) = Ok (xm eqs) -> forall z, length z = k -> (inside eqs z <-> in_hull k pts z).
Definition lp_total (lp : list XR -> list (list XR) -> list XR -> list (option XR * option XR) -> res (option (list XR))) : Prop :=
  forall c A b bnds, (exists x, feasible A b bnds x) -> (exists low, forall x, feasible A b bnds x -> (low <= rdot c x)%R) ->
    exists x, lp (xv c) (xm A) (xv b) (map xbound bnds) = Ok (Some x).

(** What a session has said so far: the gear, the reference point in force and the
    points of the approximation: those of the initial request, and every solution
    that was shown and not accepted. *)
Definition class_target {N : NumOps} (ideal nadir c : list N) (l : list pn_class) : list N :=
  zipw (fun cl t => match cl with CLess => fst t | CGreater => fst (snd t) | _ => snd (snd t) end) l (combine ideal (combine nadir c)).
Record pn_said (N : NumOps) := MkSaid { sd_gear : pn_gear; sd_target : option (list N); sd_points : list (list N) }.
Arguments MkSaid {N}. Arguments sd_gear {N}. Arguments sd_target {N}. Arguments sd_points {N}.
Definition next_said {N : NumOps} (h : pn_said N) (q : pn_request N) (d : pn_dict N) (q' : pn_request N) : pn_said N :=
  MkSaid (next_gear (sd_gear h) q d q')
    (match q, q' with
     | PInit _ _ _, _ => match pd_ref d with Some (RArr r) => Some r | _ => sd_target h end
     | PReq (CVec c) ideal nadir, PReq _ _ _ =>
         match pd_ref d, pd_class d with
         | Some (RArr r), _ => Some r
         | None, Some l => Some (class_target ideal nadir c l)
         | _, _ => sd_target h
         end
     | _, _ => sd_target h
     end)
    (match q, q' with PSol _ _ f, PReq _ _ _ => sd_points h ++ [f] | _, _ => sd_points h end).
Definition said0 {N : NumOps} (s0 : pn_state N) : pn_said N := MkSaid (MkGear 1 1) None (ps_pos s0).
(** The step parameter: against (-) or along (+) the direction to the reference point. *)
Definition step_of (g : pn_gear) : R := (IZR (g_sign g) * IZR (g_speed g) / 50)%R.

(** The setting of the theorems over the reals: k objectives, a method object as
    constructed, real data, an exact linprog. *)
Definition pn_setting (k : nat) (e : pn_env XR) (i0 n0 : list XR) (given : option (list (list XR))) (s0 : pn_state XR) (ideal nadir : list R) : Prop :=
  pn_wf k e i0 n0 given /\ pn_ctor e i0 n0 given = Ok s0 /\ pn_real e s0 ideal nadir /\ lp_exact (pe_lp e) /\ pn_real_decisions e.
(** The initial ideal and nadir enclose the given solutions. *)
Definition encloses0 {N : NumOps} (s0 : pn_state N) : Prop := forall f, In f (ps_pos s0) -> in_box f (ps_ideal s0) (ps_nadir s0).
(** Answers of a decision maker who starts from a given solution. *)
Definition pn_plays (k : nat) (q : pn_request XR) (d : pn_dict XR) : Prop := pn_answers k q d /\ pn_prefers q d.
