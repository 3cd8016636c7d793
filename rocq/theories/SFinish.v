(** * Ending a session (C106).  [step s q d s' q']: in state [s] request [q] accepts
    the answer [d], and passing it to iterate returns [q'] and leaves the state [s']. *)
Section Ends.
  Context {S Q D : Type} (step : S -> Q -> D -> S -> Q -> Prop) (stop : Q -> Prop).
  (** [n] suitable answers, each to the request returned for the one before, lead from
      request [q] to a stop request. *)
  Inductive ends : nat -> S -> Q -> Prop :=
  | ends_now s q : stop q -> ends 0 s q
  | ends_answer n s q d s' q' : step s q d s' q' -> ends n s' q' -> ends (Datatypes.S n) s q.
End Ends.
