(** * NIMBUS: the vocabulary of property C99 (weak Pareto optimality). *)
From Coq Require Import ZArith List Bool.
From Verif Require Import Num Py Np Spec MNimbus SNimbus.
Import ListNotations.

Section Spec3.
  Context {N : NumOps}.
  Notation vec := (list N).
  Notation mat := (list (list N)).

  (** Smaller in every objective. *)
  Definition strictly_better (g f : vec) : Prop := Forall2 (fun x y => nltb x y = true) g f.
  (** A row of the data such that no row is smaller in every objective. *)
  Definition weakly_optimal (objs : mat) (f : vec) : Prop :=
    In f objs /\ forall g, In g objs -> ~ strictly_better g f.

  (** The objective vectors a request shows. *)
  Definition shows (q : nb_request N) (f : vec) : Prop :=
    match q with
    | QClass g => f = g
    | QSave _ objs | QInter _ objs | QPref _ objs => In f objs
    | QStop _ g => f = g
    end.

  (** The achievement function [a] with the reference point [ref] prefers rows
      of the data that are better in every objective. *)
  Definition improves_on (av : @asf_val N) (objs : mat) (a : nb_asf N) (ref : vec) : Prop :=
    forall f g v, In f objs -> In g objs -> strictly_better g f -> av a f ref = Ok v -> nisnan v = false ->
      exists w, av a g ref = Ok w /\ nltb w v = true.

  (** The reference point of the first projection: the starting point, or the
      middle of ideal and nadir. *)
  Definition start_ref (start : option vec) (ideal nadir : vec) : vec :=
    match start with Some v => v | None => zipw (fun a b => ndiv (nadd a b) (nofZ 2)) ideal nadir end.

  (** The functions and reference points a classification [cl], [lv] of [cur] asks for. *)
  Definition asked (nobj : nat) (ideal nadir : vec) (cl : list cls) (lv cur : vec) (a : nb_asf N) (ref : vec) : Prop :=
    (a = scalarization ideal nadir cl 0 /\ ref = lv) \/
    (exists j, 1 <= j <= 3 /\ a = scalarization ideal nadir cl j /\ implied_point nobj cl ideal nadir cur lv ref).

  (** Raising a level never makes a row infeasible: the slack of a smaller
      number is nonnegative if the slack of a larger one is. *)
  Definition slack_monotone (fin : N -> Prop) : Prop :=
    forall c x y, fin x -> fin y -> nltb y x = true -> nleb (nofZ 0) (nsub c x) = true -> nleb (nofZ 0) (nsub c y) = true.

  (** A history in which every classification answer [cl], [lv] of a current
      objective vector [cur] satisfies [good cur cl lv]. *)
  Inductive nb_reach_if (good : vec -> list cls -> vec -> Prop) (av : asf_val) (p : nb_problem N) (ideal nadir : vec) (s0 : nb_state N)
    : nb_state N -> list (nb_request N) -> Prop :=
  | nb_reach_if_init : nb_reach_if good av p ideal nadir s0 s0 [nb_start s0]
  | nb_reach_if_step s qs q resp s' out :
      nb_reach_if good av p ideal nadir s0 s qs -> In q qs ->
      (forall d, resp = Some d -> nb_validate p ideal nadir q d = Ok tt) ->
      (forall f d cl lv, q = QClass f -> resp = Some d -> bd_cls d = Some cl -> bd_levels d = Some lv -> good (bs_obj s) cl lv) ->
      nb_iterate av p ideal nadir q resp s = (s', out) ->
      nb_reach_if good av p ideal nadir s0 s' (match out with Ok q' => q' :: qs | Raise _ => qs end).
End Spec3.
