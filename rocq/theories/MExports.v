(** * Model of desdeo_mcdm/interactive/__init__.py: what the names of the package are.

    Every name listed is defined in the module it is imported from (class or def
    statement there), so an object is identified by its module and its name.  The
    exception classes of the methods derive directly from Exception (ENautilus.py 10,
    Nautilus.py 119, NautilusV2.py 176, NautilusNavigator.py 196, NIMBUS.py 16,
    ParetoNavigator.py 19, ReferencePointMethod.py 17): an except clause for one of
    them catches exactly the exceptions of that class. *)
From Coq Require Import String.
From Coq Require Import ZArith List Bool.
From Verif Require Import Num Py.
Import ListNotations.
Open Scope string_scope.

(* /repo/desdeo_mcdm: interactive/__init__.py:43-102 (what a name is bound to) *)
Definition obj : Type := string * string.      (* module, name *)
(* /repo/desdeo_mcdm: interactive/__init__.py:43-102 *)
Definition imports : Type := list (string * list string).

(** [from module import names], one after the other: a later binding of a name
    replaces an earlier one. *)
(* /repo/desdeo_mcdm: interactive/__init__.py:43-102 (one name of an import statement) *)
Definition bind_one (m : string) (env : string -> option obj) (n : string) : string -> option obj :=
  fun x => if String.eqb x n then Some (m, n) else env x.
(* /repo/desdeo_mcdm: interactive/__init__.py:43-102 (one import statement) *)
Definition bind_stmt (env : string -> option obj) (s : string * list string) : string -> option obj :=
  fold_left (bind_one (fst s)) (snd s) env.
(* /repo/desdeo_mcdm: interactive/__init__.py:43-102 (all import statements, in order) *)
Definition namespace (l : imports) : string -> option obj := fold_left bind_stmt l (fun _ => None).

(** Lines 43-102. *)
(* /repo/desdeo_mcdm: interactive/__init__.py:43-102 *)
Definition interactive_imports : imports := [
  ("ParetoNavigator", ["ParetoNavigator"; "ParetoNavigatorException"; "ParetoNavigatorInitialRequest"; "ParetoNavigatorRequest"; "ParetoNavigatorSolutionRequest"; "ParetoNavigatorStopRequest"]);
  ("ENautilus", ["ENautilus"; "ENautilusException"; "ENautilusInitialRequest"; "ENautilusRequest"; "ENautilusStopRequest"]);
  ("Nautilus", ["validate_response"; "validate_preferences"; "validate_n_iterations"; "Nautilus"; "NautilusException"; "NautilusInitialRequest"; "NautilusRequest"; "NautilusStopRequest"]);
  ("NautilusV2", ["validate_response"; "validate_n2_preferences"; "validate_n_iterations"; "NautilusV2"; "NautilusException"; "NautilusInitialRequest"; "NautilusRequest"; "NautilusStopRequest"]);
  ("NautilusNavigator", ["NautilusNavigator"; "NautilusNavigatorException"; "NautilusNavigatorRequest"]);
  ("NIMBUS", ["NIMBUS"; "NimbusClassificationRequest"; "NimbusException"; "NimbusIntermediateSolutionsRequest"; "NimbusMostPreferredRequest"; "NimbusSaveRequest"; "NimbusStopRequest"]);
  ("ReferencePointMethod", ["RPMException"; "RPMInitialRequest"; "RPMRequest"; "RPMStopRequest"; "ReferencePointMethod"])].

(** Lines 4-41. *)
(* /repo/desdeo_mcdm: interactive/__init__.py:4-41 *)
Definition interactive_all : list string := [
  "ENautilus"; "ENautilusException"; "ENautilusInitialRequest"; "ENautilusRequest"; "ENautilusStopRequest";
  "validate_response"; "validate_preferences"; "validate_n2_preferences"; "validate_n_iterations";
  "Nautilus"; "NautilusV2"; "NautilusException"; "NautilusInitialRequest"; "NautilusRequest"; "NautilusStopRequest";
  "NautilusNavigator"; "NautilusNavigatorException"; "NautilusNavigatorRequest";
  "NIMBUS"; "NimbusException"; "NimbusClassificationRequest"; "NimbusIntermediateSolutionsRequest"; "NimbusMostPreferredRequest"; "NimbusSaveRequest"; "NimbusStopRequest";
  "ReferencePointMethod"; "RPMException"; "RPMInitialRequest"; "RPMRequest"; "RPMStopRequest";
  "ParetoNavigator"; "ParetoNavigatorException"; "ParetoNavigatorInitialRequest"; "ParetoNavigatorRequest"; "ParetoNavigatorSolutionRequest"; "ParetoNavigatorStopRequest"].

(** What a user writes: [from desdeo_mcdm.interactive import name]. *)
(* /repo/desdeo_mcdm: interactive/__init__.py:1-102 *)
Definition interactive (n : string) : option obj := namespace interactive_imports n.

(** The methods, as (exported name of the method, exported name of its exception);
    each method is the class of the same name in the module of the same name. *)
(* /repo/desdeo_mcdm: interactive/__init__.py:4-41 *)
Definition methods : list (string * string) := [
  ("ENautilus", "ENautilusException"); ("Nautilus", "NautilusException"); ("NautilusV2", "NautilusException");
  ("NautilusNavigator", "NautilusNavigatorException"); ("NIMBUS", "NimbusException");
  ("ReferencePointMethod", "RPMException"); ("ParetoNavigator", "ParetoNavigatorException")].

(** The class of an exception that the code of a module raises: [MethodExn] is the
    class of that name in the module itself, [OtherMethodExn] (only in the Pareto
    Navigator, which calls validate_reference_point) that of ReferencePointMethod.py;
    the others are built in. *)
(* /repo/desdeo_mcdm: ENautilus.py:10, NIMBUS.py:16, Nautilus.py:119, NautilusNavigator.py:196, NautilusV2.py:176, ParetoNavigator.py:19, ReferencePointMethod.py:17 *)
Definition exn_class (module excname : string) (x : exn) : option obj :=
  match x with
  | MethodExn => Some (module, excname)
  | OtherMethodExn => Some ("ReferencePointMethod", "RPMException")
  | _ => None
  end.
(** [except name: ...] around a call into [module]. *)
(* /repo/desdeo_mcdm: interactive/__init__.py:43-102 (a user's except clause) *)
Definition caught (name module excname : string) (x : exn) : Prop :=
  exists c, interactive name = Some c /\ exn_class module excname x = Some c.
