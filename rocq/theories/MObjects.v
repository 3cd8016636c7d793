(** * Request objects: how answers reach a method.
    The models of the methods take a request's content and a validated response as
    arguments of [iterate].  In the code a request is an object with a response
    attribute; assigning to it runs the validator and then keeps a reference to the
    caller's dictionary ([self._response = response]); [iterate] reads the attribute.
    Here requests and dictionaries are mutable objects, and the caller may create and
    edit dictionaries, answer any request any number of times and iterate any request
    any number of times.

    Simplifications: a method that returns the request it was given (an ended NIMBUS
    session, stop requests) is taken to return a new request with the same content;
    a dictionary is edited as a whole.  A stop request of NAUTILUS Navigator, and of any
    method whose stop request has no setter of its own, is not answered. *)
From Coq Require Import ZArith List Bool.
From Verif Require Import Num Py Np.
Import ListNotations.

Section Objects.
  (** The method's attributes, the contents of requests, of dictionaries, and what a
      call may depend on besides (the outcome of a randomised clustering). *)
  (* /repo/desdeo_mcdm: NIMBUS.py:122-125; ENautilus.py:61-64; NautilusNavigator.py:190-193; Nautilus.py:177-190; ReferencePointMethod.py:86-104; ParetoNavigator.py:87-130 (class of a request, dictionaries) *)
  Context {S Q D K : Type}.

  (** What a method consists of: the validator of a request, iterate ([None]: no request
      is returned). *)
  (* /repo/desdeo_mcdm: NIMBUS.py:122-125, 980-1059; ENautilus.py:61-64, 148-151, 251-270; NautilusNavigator.py:190-193, 302-314; Nautilus.py:177-190, 245-256, 432-453; NautilusV2.py:231-244, 306-317, 492-513; ReferencePointMethod.py:86-104, 136-165; ParetoNavigator.py:87-130, 203-245, 280-288, 392-426 *)
  Variables (validate : Q -> D -> res unit) (step : K -> Q -> option D -> SE S (option Q)).

  (** The method, the requests it has returned (oldest first) with their response
      attribute, and the dictionaries. *)
  (* /repo/desdeo_mcdm: NIMBUS.py:122-125 (self._response) and the same attribute of all request classes *)
  Record ob_world := MkOW { ow_state : S; ow_reqs : list (Q * option nat); ow_dicts : list D }.

  (** What may happen. *)
  (* /repo/desdeo_mcdm: NIMBUS.py:122-125, 980-1059 and the same methods of the other classes *)
  Inductive ob_event :=
  | OMake (d : D)                (* a new dictionary *)
  | OEdit (l : nat) (d : D)      (* a dictionary is edited in place *)
  | OAnswer (i : nat) (l : nat)  (* request.response = dictionary *)
  | OIterate (k : K) (i : nat).  (* method.iterate(request) *)

  (* /repo/desdeo_mcdm: NIMBUS.py:125 (self._response = response) *)
  Fixpoint list_set {A} (l : list A) (i : nat) (a : A) : list A :=
    match l, i with
    | [], _ => []
    | _ :: l', O => a :: l'
    | b :: l', Datatypes.S i' => b :: list_set l' i' a
    end.

  (** The response attribute read now. *)
  (* /repo/desdeo_mcdm: NIMBUS.py:507, 545, 565, 593 (request.response) *)
  Definition ob_read (w : ob_world) (slot : option nat) : option D :=
    match slot with Some l => nth_error (ow_dicts w) l | None => None end.

  (** One event; the outcome of a call that does not exist (no such request or
      dictionary) is to do nothing. *)
  (* /repo/desdeo_mcdm: NIMBUS.py:122-125, 980-1059 and the same methods of the other classes *)
  Definition ob_exec (e : ob_event) (w : ob_world) : ob_world * res unit :=
    match e with
    | OMake d => (MkOW (ow_state w) (ow_reqs w) (ow_dicts w ++ [d]), Ok tt)
    | OEdit l d => (MkOW (ow_state w) (ow_reqs w) (list_set (ow_dicts w) l d), Ok tt)
    | OAnswer i l =>
        match nth_error (ow_reqs w) i, nth_error (ow_dicts w) l with
        | Some (q, _), Some d =>
            match validate q d with
            | Ok _ => (MkOW (ow_state w) (list_set (ow_reqs w) i (q, Some l)) (ow_dicts w), Ok tt)
            | Raise x => (w, Raise x)
            end
        | _, _ => (w, Ok tt)
        end
    | OIterate k i =>
        match nth_error (ow_reqs w) i with
        | Some (q, slot) =>
            match step k q (ob_read w slot) (ow_state w) with
            | (s', Ok (Some q')) => (MkOW s' (ow_reqs w ++ [(q', None)]) (ow_dicts w), Ok tt)
            | (s', Ok None) => (MkOW s' (ow_reqs w) (ow_dicts w), Ok tt)
            | (s', Raise x) => (MkOW s' (ow_reqs w) (ow_dicts w), Raise x)
            end
        | None => (w, Ok tt)
        end
    end.

  (* /repo/desdeo_mcdm: NIMBUS.py:122-125, 980-1059 and the same methods of the other classes (a sequence of calls) *)
  Fixpoint ob_run (es : list ob_event) (w : ob_world) : ob_world :=
    match es with [] => w | e :: es' => ob_run es' (fst (ob_exec e w)) end.

  (** The object right after [start]: one request, not answered. *)
  (* /repo/desdeo_mcdm: NIMBUS.py:448-455; ENautilus.py:248-249; NautilusNavigator.py:294-300; Nautilus.py:421-430; NautilusV2.py:481-490; ReferencePointMethod.py:316-324; ParetoNavigator.py:383-390 (start) *)
  Definition ob_start (s : S) (q : Q) : ob_world := MkOW s [(q, None)] [].

  (** [iterate] of a method that always returns a request. *)
  (* /repo/desdeo_mcdm: NIMBUS.py:980-1059; ENautilus.py:251-270; NautilusNavigator.py:302-314; ReferencePointMethod.py:326-343; ParetoNavigator.py:392-426 (return) *)
  Definition ob_some (step : K -> Q -> option D -> SE S Q) (k : K) (q : Q) (r : option D) : SE S (option Q) :=
    fun s => match step k q r s with
             | (s', Ok q') => (s', Ok (Some q'))
             | (s', Raise x) => (s', Raise x)
             end.
End Objects.
Arguments ob_world : clear implicits.
Arguments ob_event : clear implicits.

From Verif Require Import MNimbus MRpm MNautilus MENautilus MNavigator MParetoNav.
Section Methods.
  (* /repo/desdeo_mcdm: (any number type) *)
  Context {N : NumOps}.

  (** The six methods as objects: [xx_calls … es] is what is reached from [start] by
      the calls [es]. *)
  (* /repo/desdeo_mcdm: NIMBUS.py:448-455, 980-1059, 122-125, 183-186, 255-258, 322-325 *)
  Definition nb_calls av (p : nb_problem N) ideal nadir (s0 : nb_state N) :=
    fun es => ob_run (nb_validate p ideal nadir) (ob_some (fun _ : unit => nb_iterate av p ideal nadir)) es (ob_start s0 (nb_start s0)).
  (* /repo/desdeo_mcdm: ReferencePointMethod.py:86-104, 136-165, 316-343 *)
  Definition rp_calls (p : rp_problem N) rho eps ideal nadir :=
    fun es => ob_run (rp_validate ideal nadir) (ob_some (fun _ : unit => rp_iterate p rho eps ideal nadir)) es (ob_start rp_init RInit).
  (* /repo/desdeo_mcdm: Nautilus.py:177-190, 245-256, 421-453; NautilusV2.py:231-244, 306-317, 481-513 *)
  Definition nt_calls (p : nt_problem N) (v : nt_variant N) eps ideal nadir :=
    fun es => ob_run (nt_validate v nadir) (fun _ : unit => nt_iterate p v eps ideal nadir) es (ob_start nt_init NInit).
  (* /repo/desdeo_mcdm: ENautilus.py:61-64, 148-151, 248-270 *)
  Definition en_calls (front : list (list N)) (ideal nadir : list N) (vars : option (list (list N))) :=
    fun es => ob_run en_validate (ob_some (fun km : @km_oracle N => en_iterate km)) es
      (ob_start (en_init front ideal nadir vars) (en_start (en_init front ideal nadir vars))).
  (* /repo/desdeo_mcdm: NautilusNavigator.py:190-193 (a stop request is not answered) *)
  Definition nv_setter (q : nv_request N) (d : nv_dict N) : res unit :=
    match q with NReq c => nv_validate c d | NStop _ _ _ => Raise AttrErr end.
  (* /repo/desdeo_mcdm: NautilusNavigator.py:190-193, 294-314 *)
  Definition nv_calls asf (front : list (list N)) (ideal nadir : list N) (vars : option (list (list N))) :=
    fun es => ob_run nv_setter (ob_some (fun _ : unit => nv_iterate asf)) es
      (ob_start (nv_init front ideal nadir vars) (nv_start (nv_init front ideal nadir vars))).
  (* /repo/desdeo_mcdm: ParetoNavigator.py:87-130, 203-245, 280-288, 383-426 *)
  Definition pn_calls (e : pn_env N) (s0 : pn_state N) :=
    fun es => ob_run pn_validate (ob_some (fun _ : unit => pn_iterate e)) es (ob_start s0 (pn_start s0)).
End Methods.
