(** * Python effects: exceptions as values, dynamically typed values, indexing. *)
From Coq Require Import ZArith List Bool Lia.
From Verif Require Import Num.
Import ListNotations.

(** Exceptions that the modelled code can raise.  [MethodExn] is the exception
    class of the method's own module (ENautilusException, NimbusException, ...),
    [OtherMethodExn] that of another method's module.
    [Diverges] is not an exception: the call has not returned. *)
Inductive exn : Type :=
| MethodExn | OtherMethodExn | KeyErr | IndexErr | TypeErr | ValueErr | ZeroDivErr | AttrErr | NameErr | SolverExn | Diverges.

Inductive res (A : Type) : Type :=
| Ok (a : A)
| Raise (e : exn).
Arguments Ok {A}. Arguments Raise {A}.

Definition rbind {A B} (r : res A) (f : A -> res B) : res B :=
  match r with Ok a => f a | Raise e => Raise e end.
Notation "'do' x <- e1 ; e2" := (rbind e1 (fun x => e2))
  (at level 200, x pattern, e1 at level 100, e2 at level 200, right associativity).

Definition rmap {A B} (f : A -> B) (r : res A) : res B :=
  match r with Ok a => Ok (f a) | Raise e => Raise e end.

(** Evaluate a list of computations left to right, stopping at the first exception. *)
Fixpoint rseq {A} (l : list (res A)) : res (list A) :=
  match l with
  | [] => Ok []
  | Ok a :: l' => rmap (cons a) (rseq l')
  | Raise e :: _ => Raise e
  end.

Definition is_ok {A} (r : res A) : bool := match r with Ok _ => true | _ => false end.

(** A dynamically typed value found in a response dictionary; [VStr o] is a
    string on which [int(...)] returns [o] (None: it raises ValueError). *)
Inductive pyval (N : NumOps) : Type :=
| VNone | VBool (b : bool) | VInt (z : Z) | VFloat (x : N) (trunc : option Z)
| VStr (o : option Z) | VOther.
Arguments VNone {_}. Arguments VBool {_}. Arguments VInt {_}.
Arguments VFloat {_}. Arguments VStr {_}. Arguments VOther {_}.

Definition bool2Z (b : bool) : Z := if b then 1%Z else 0%Z.

(** [isinstance(v, int)] and the integer it denotes: bool is a subclass of int. *)
Definition as_int {N} (v : pyval N) : option Z :=
  match v with VInt z => Some z | VBool b => Some (bool2Z b) | _ => None end.

(** [int(v)]: truncates floats (the truncation is carried by the value; None
    for NaN and infinities, which raise), parses strings, raises on the rest. *)
Definition py_int {N} (v : pyval N) : option Z :=
  match v with
  | VInt z => Some z | VBool b => Some (bool2Z b)
  | VFloat _ t => t | VStr o => o
  | VNone | VOther => None
  end.

(** Truth value of a Python value ([VStr]: a non-empty string, [VOther]: an
    object that is true). *)
Definition truthy {N} (v : pyval N) : bool :=
  match v with
  | VBool b => b | VNone => false | VInt z => negb (z =? 0)%Z
  | VFloat x _ => negb (neqb x (nofZ 0)) | VStr _ => true | VOther => true
  end.

(** [v < z], [v > z], [v <= z] for a Python value and an int: TypeError unless a number. *)
Definition py_lt {N} (v : pyval N) (z : Z) : res bool :=
  match v with
  | VInt x => Ok (x <? z)%Z | VBool b => Ok (bool2Z b <? z)%Z
  | VFloat x _ => Ok (nltb x (nofZ z)) | _ => Raise TypeErr
  end.
Definition py_gt {N} (v : pyval N) (z : Z) : res bool :=
  match v with
  | VInt x => Ok (z <? x)%Z | VBool b => Ok (z <? bool2Z b)%Z
  | VFloat x _ => Ok (nltb (nofZ z) x) | _ => Raise TypeErr
  end.
Definition py_le {N} (v : pyval N) (z : Z) : res bool :=
  match v with
  | VInt x => Ok (x <=? z)%Z | VBool b => Ok (bool2Z b <=? z)%Z
  | VFloat x _ => Ok (nleb x (nofZ z)) | _ => Raise TypeErr
  end.
Definition py_ge {N} (v : pyval N) (z : Z) : res bool :=
  match v with
  | VInt x => Ok (z <=? x)%Z | VBool b => Ok (z <=? bool2Z b)%Z
  | VFloat x _ => Ok (nleb (nofZ z) x) | _ => Raise TypeErr
  end.
(** [v == z] never raises. *)
Definition py_eq {N} (v : pyval N) (z : Z) : bool :=
  match v with
  | VInt x => (x =? z)%Z | VBool b => (bool2Z b =? z)%Z | VFloat x _ => neqb x (nofZ z) | _ => false
  end.
(** [int(v)]; OverflowError, for an infinite float, is written ValueErr too. *)
Definition py_toint {N} (v : pyval N) : res Z :=
  match py_int v with
  | Some z => Ok z
  | None => match v with VNone | VOther => Raise TypeErr | _ => Raise ValueErr end
  end.

(** [l[i]] for a Python sequence or the first axis of an ndarray: negative
    indices count from the end, anything else out of range is an IndexError. *)
Definition py_pos (len : nat) (i : Z) : option nat :=
  if ((0 <=? i) && (i <? Z.of_nat len))%Z then Some (Z.to_nat i)
  else if ((- Z.of_nat len <=? i) && (i <? 0))%Z then Some (Z.to_nat (i + Z.of_nat len))
  else None.
Definition py_nth {A} (l : list A) (i : Z) : res A :=
  match py_pos (length l) i with
  | Some n => match nth_error l n with Some a => Ok a | None => Raise IndexErr end
  | None => Raise IndexErr
  end.
(** [l[i]] with a natural number index. *)
Definition at_ {A} (l : list A) (i : nat) : res A :=
  match nth_error l i with Some a => Ok a | None => Raise IndexErr end.
(** A dictionary lookup [d[key]] whose key may be missing. *)
Definition key {A} (o : option A) : res A :=
  match o with Some a => Ok a | None => Raise KeyErr end.

(** [l[i] = x] on a preallocated buffer. *)
Fixpoint set_nth {A} (l : list A) (i : nat) (x : A) : option (list A) :=
  match l, i with
  | [], _ => None
  | _ :: l', O => Some (x :: l')
  | a :: l', S i' => match set_nth l' i' x with Some r => Some (a :: r) | None => None end
  end.
Definition set_ {A} (l : list A) (i : nat) (x : A) : res (list A) :=
  match set_nth l i x with Some r => Ok r | None => Raise IndexErr end.

(** * State + exceptions: a method body that mutates [self] and may raise.
    A raise keeps the mutations made before it. *)
Definition SE (S A : Type) : Type := S -> S * res A.
Definition sret {S A} (a : A) : SE S A := fun s => (s, Ok a).
Definition sraise {S A} (e : exn) : SE S A := fun s => (s, Raise e).
Definition sbind {S A B} (m : SE S A) (f : A -> SE S B) : SE S B :=
  fun s => match m s with
           | (s', Ok a) => f a s'
           | (s', Raise e) => (s', Raise e)
           end.
Definition lift {S A} (r : res A) : SE S A := fun s => (s, r).
Definition sget {S} : SE S S := fun s => (s, Ok s).
Definition smod {S} (f : S -> S) : SE S unit := fun s => (f s, Ok tt).
Notation "x <-- m ;; k" := (sbind m (fun x => k))
  (at level 61, m at next level, right associativity).
Notation "m ;;; k" := (sbind m (fun _ => k))
  (at level 61, right associativity).

Lemma sbind_ok {S A B} (m : SE S A) (f : A -> SE S B) s s' b :
  sbind m f s = (s', Ok b) -> exists a s1, m s = (s1, Ok a) /\ f a s1 = (s', Ok b).
Proof.
  unfold sbind. destruct (m s) as [s1 [a|e]]; intros H; [eauto | inversion H].
Qed.

Lemma rbind_ok {A B} (r : res A) (f : A -> res B) b :
  rbind r f = Ok b -> exists a, r = Ok a /\ f a = Ok b.
Proof. destruct r; simpl; intros H; [eauto|discriminate]. Qed.

Lemma rmap_ok {A B} (f : A -> B) r b : rmap f r = Ok b -> exists a, r = Ok a /\ b = f a.
Proof. destruct r; simpl; intros H; inversion H; eauto. Qed.

Lemma rseq_ok {A} (l : list (res A)) (v : list A) :
  rseq l = Ok v <-> l = map Ok v.
Proof.
  revert v. induction l as [|[a|e] l IH]; intros v; simpl.
  - split; intros H; [inversion H; reflexivity | destruct v; [reflexivity|discriminate]].
  - split.
    + intros H. apply rmap_ok in H. destruct H as [v' [H1 H2]]. subst.
      apply IH in H1. subst. reflexivity.
    + destruct v as [|b v]; simpl; intros H; inversion H; subst.
      rewrite (proj2 (IH v) eq_refl). reflexivity.
  - split; [discriminate|]. destruct v; simpl; discriminate.
Qed.

Lemma rseq_map_ok {A B} (f : A -> res B) (l : list A) (v : list B) :
  rseq (map f l) = Ok v <-> Forall2 (fun a b => f a = Ok b) l v.
Proof.
  rewrite rseq_ok. revert v. induction l as [|a l IH]; intros [|b v]; simpl; split; intros H;
    try discriminate; try (inversion H; fail); try constructor; auto.
  - inversion H. auto.
  - apply IH. inversion H. auto.
  - inversion H; subst. f_equal; auto. apply IH. auto.
Qed.

Lemma py_pos_some len i n : py_pos len i = Some n -> n < len.
Proof.
  unfold py_pos.
  destruct ((0 <=? i)%Z && (i <? Z.of_nat len)%Z) eqn:E1.
  - intros H. inversion H; subst. apply andb_true_iff in E1. destruct E1 as [A B].
    apply Z.leb_le in A. apply Z.ltb_lt in B. lia.
  - destruct ((- Z.of_nat len <=? i)%Z && (i <? 0)%Z) eqn:E2; [|discriminate].
    intros H. inversion H; subst. apply andb_true_iff in E2. destruct E2 as [A B].
    apply Z.leb_le in A. apply Z.ltb_lt in B. lia.
Qed.

Lemma py_pos_nonneg len i : (0 <= i < Z.of_nat len)%Z -> py_pos len i = Some (Z.to_nat i).
Proof.
  intros [A B]. unfold py_pos. apply Z.leb_le in A. apply Z.ltb_lt in B.
  rewrite A, B. reflexivity.
Qed.

Lemma py_nth_nonneg {A} (l : list A) i :
  (0 <= i)%Z -> py_nth l i = at_ l (Z.to_nat i).
Proof.
  intros H. unfold py_nth, at_.
  destruct (Z.ltb_spec i (Z.of_nat (length l))) as [B|B].
  - rewrite py_pos_nonneg by lia. reflexivity.
  - unfold py_pos. rewrite (proj2 (Z.ltb_ge _ _) B), andb_false_r.
    rewrite (proj2 (Z.ltb_ge i 0) H), andb_false_r.
    rewrite (proj2 (nth_error_None l (Z.to_nat i))) by lia. reflexivity.
Qed.

Lemma py_nth_In {A} (l : list A) i x : py_nth l i = Ok x -> In x l.
Proof.
  unfold py_nth. destruct (py_pos (length l) i) as [n|]; [|discriminate].
  destruct (nth_error l n) eqn:E; intros H; inversion H; subst.
  eapply nth_error_In; eauto.
Qed.

Lemma set_nth_length {A} (l : list A) i x l' : set_nth l i x = Some l' -> length l' = length l.
Proof.
  revert i l'. induction l as [|a l IH]; intros i l'; simpl; [destruct i; discriminate|].
  destruct i.
  - intros H. inversion H. reflexivity.
  - destruct (set_nth l i x) eqn:E; intros H; inversion H; subst. simpl. f_equal. eauto.
Qed.
Lemma set_nth_some {A} (l : list A) i x : i < length l <-> exists l', set_nth l i x = Some l'.
Proof.
  revert i. induction l as [|a l IH]; intros i; simpl.
  - split; [lia | intros [l' H]; destruct i; discriminate].
  - destruct i; [split; eauto; lia|].
    split.
    + intros H. destruct (proj1 (IH i)) as [l' H']; [lia|]. rewrite H'. eauto.
    + intros [l' H]. destruct (set_nth l i x) eqn:E; [|discriminate].
      assert (i < length l) by (apply IH; eauto). lia.
Qed.
Lemma set_nth_get_same {A} (l : list A) i x l' :
  set_nth l i x = Some l' -> nth_error l' i = Some x.
Proof.
  revert i l'. induction l as [|a l IH]; intros i l'; simpl; [destruct i; discriminate|].
  destruct i.
  - intros H. inversion H. reflexivity.
  - destruct (set_nth l i x) eqn:E; intros H; inversion H; subst. simpl. eauto.
Qed.
Lemma set_nth_get_other {A} (l : list A) i j x l' :
  set_nth l i x = Some l' -> i <> j -> nth_error l' j = nth_error l j.
Proof.
  revert i j l'. induction l as [|a l IH]; intros i j l'; simpl; [destruct i; discriminate|].
  destruct i.
  - intros H Hij. inversion H. destruct j; [congruence|reflexivity].
  - destruct (set_nth l i x) eqn:E; intros H Hij; inversion H; subst. destruct j; simpl; auto.
    eapply IH; eauto.
Qed.
Lemma set_ok {A} (l : list A) i x : i < length l -> exists l', set_ l i x = Ok l' /\ set_nth l i x = Some l'.
Proof.
  intros H. apply (set_nth_some l i x) in H. destruct H as [l' H].
  exists l'. unfold set_. rewrite H. auto.
Qed.
Lemma set_ok_inv {A} (l l' : list A) i x : set_ l i x = Ok l' -> set_nth l i x = Some l'.
Proof. unfold set_. destruct (set_nth l i x); intros H; inversion H; reflexivity. Qed.
Lemma at_ok {A} (l : list A) i x : at_ l i = Ok x <-> nth_error l i = Some x.
Proof. unfold at_. destruct (nth_error l i); split; intros H; inversion H; auto. Qed.
