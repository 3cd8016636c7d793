(** * NAUTILUS Navigator and the reference point as a shared array.
    [MNavigator.v] passes the reference point by value.  In the code the method
    keeps the array object it was given (line 444) and compares the next answer's
    array with it (lines 429-431), so what is compared depends on whether the
    caller has written into that array in between.  Here the arrays of the decision
    maker live in a heap.  User bounds are copied by the method (line 324), the
    other entries of a response are immutable values. *)
From Coq Require Import ZArith List Bool.
From Verif Require Import Num Py Np MNavigator.
Import ListNotations.

Section Alias.
  Context {N : NumOps}.
  Notation vec := (list N).

  (** What happens in a session: the decision maker makes an array, writes into one
      of her arrays, or has the [i]-th issued request (0: the latest) iterated with a
      response whose reference point is the array at [l] and whose other entries are
      those of [d]. *)
  (* /repo/desdeo_mcdm: NautilusNavigator.py:302-359 (iterate, handle_request; response["reference_point"] is an array object) *)
  Inductive nva_event :=
  | ANew (v : vec)
  | AEdit (l : loc) (v : vec)
  | AAnswer (i : nat) (l : loc) (d : nv_dict N).

  (** The response with the content the array has now. *)
  (* /repo/desdeo_mcdm: NautilusNavigator.py:320 (response["reference_point"]) *)
  Definition with_ref (v : vec) (d : nv_dict N) : nv_dict N :=
    MkND (Some v) (nd_speed d) (nd_prev d) (nd_bounds d) (nd_stop d).

  (** The arrays, the method's attributes, the array self._reference_point is, and
      the requests issued, latest first. *)
  (* /repo/desdeo_mcdm: NautilusNavigator.py:248-292, 444 *)
  Record nva_state := MkNA {
    na_heap : heap vec; na_s : nv_state N; na_loc : option loc; na_reqs : list (nv_request N) }.

  (** Reading self._reference_point reads the array as it is now. *)
  (* /repo/desdeo_mcdm: NautilusNavigator.py:429-431 (self._reference_point) *)
  Definition w_ref (r : option vec) (s : nv_state N) : nv_state N :=
    MkNS (ns_front s) (ns_ideal s) (ns_nadir s) (ns_vars s) (ns_lb s) (ns_ub s) (ns_bounds s) (ns_idx s) (ns_step s) (ns_left s) (ns_dist s) (ns_speed s) r (ns_nav s) (ns_proj s).
  (* /repo/desdeo_mcdm: NautilusNavigator.py:429-431 (self._reference_point) *)
  Definition na_ref (h : heap vec) (l : option loc) : option vec :=
    match l with Some l => nth_error h l | None => None end.

  (** Whether a call gets to line 444, where self._reference_point becomes the
      response's array: a forward answer that asks for a new projection which is
      found (that these calls and no others change the attribute is proved). *)
  (* /repo/desdeo_mcdm: NautilusNavigator.py:329-359, 411-445 *)
  Definition nv_keeps (asf : asf_fn) (ref : vec) (d : nv_dict N) (s : nv_state N) : bool :=
    match nd_speed d, nd_prev d, nd_bounds d, nd_stop d with
    | Some _, Some prev, Some _, Some stop =>
        negb (truthy stop) && negb (truthy prev) &&
        ((ns_step s =? 1)%Z
         || match ns_ref s with
            | Some r0 => match allclose ref r0 with Ok c => negb c | Raise _ => false end
            | None => false
            end) &&
        is_ok (nv_solve asf [ns_front s] 0 (ns_idx s) ref (ns_ideal s) (ns_nadir s) (ns_bounds s))
    | _, _, _, _ => false
    end.

  (* /repo/desdeo_mcdm: NautilusNavigator.py:302-489 *)
  Definition nva_step (asf : asf_fn) (e : nva_event) (st : nva_state) : nva_state :=
    match e with
    | ANew v => MkNA (na_heap st ++ [v]) (na_s st) (na_loc st) (na_reqs st)
    | AEdit l v =>
        match set_nth (na_heap st) l v with
        | Some h => MkNA h (na_s st) (na_loc st) (na_reqs st)
        | None => st   (* no such array *)
        end
    | AAnswer i l d =>
        match nth_error (na_reqs st) i, nth_error (na_heap st) l with
        | Some q, Some v =>
            let s := w_ref (na_ref (na_heap st) (na_loc st)) (na_s st) in
            let (s', out) := nv_iterate asf q (Some (with_ref v d)) s in
            MkNA (na_heap st) s' (if nv_keeps asf v d s then Some l else na_loc st)
                 (match out with Ok q' => q' :: na_reqs st | Raise _ => na_reqs st end)
        | _, _ => st
        end
    end.
  (* /repo/desdeo_mcdm: NautilusNavigator.py:203-489 (a session) *)
  Definition nva_run (asf : asf_fn) (es : list nva_event) (st : nva_state) : nva_state :=
    fold_left (fun st e => nva_step asf e st) es st.
  (* /repo/desdeo_mcdm: NautilusNavigator.py:248-300 (__init__, start) *)
  Definition nva_init (front : list vec) (ideal nadir : vec) (vars : option (list vec)) : nva_state :=
    let s := nv_init front ideal nadir vars in MkNA [] s None [nv_start s].

  (** The same session with reference points passed by value: [(i, d)] answers the
      [i]-th issued request. *)
  (* /repo/desdeo_mcdm: NautilusNavigator.py:302-489 *)
  Definition nvv_step (asf : asf_fn) (a : nat * nv_dict N) (st : nv_state N * list (nv_request N)) :=
    match nth_error (snd st) (fst a) with
    | Some q =>
        let (s', out) := nv_iterate asf q (Some (snd a)) (fst st) in
        (s', match out with Ok q' => q' :: snd st | Raise _ => snd st end)
    | None => st
    end.
  (* /repo/desdeo_mcdm: NautilusNavigator.py:203-489 (a session) *)
  Definition nvv_run (asf : asf_fn) (l : list (nat * nv_dict N)) (st : nv_state N * list (nv_request N)) :=
    fold_left (fun st a => nvv_step asf a st) l st.
End Alias.
Arguments nva_event : clear implicits.
Arguments nva_state : clear implicits.
