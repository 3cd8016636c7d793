(** * A small program logic for the state-and-exception monad of Py.v. *)
From Coq Require Import List Bool.
From Verif Require Import Py.

(** From a state satisfying [P], [m] ends in a result and a state satisfying [Q],
    or raises an exception in a state satisfying [E]. *)
Definition hs {S A} (P : S -> Prop) (m : SE S A) (Q : A -> S -> Prop) (E : exn -> S -> Prop) : Prop :=
  forall s, P s -> match m s with (s', Ok a) => Q a s' | (s', Raise e) => E e s' end.

Lemma hs_run {S A} P (m : SE S A) Q E s s' r : hs P m Q E -> P s -> m s = (s', r) ->
  match r with Ok a => Q a s' | Raise e => E e s' end.
Proof. intros H HP Em. specialize (H s HP). rewrite Em in H. destruct r; exact H. Qed.
Lemma hs_ret {S A} (a : A) (P : S -> Prop) (Q : A -> S -> Prop) E : (forall s, P s -> Q a s) -> hs P (sret a) Q E.
Proof. intros H s HP. cbn. apply H, HP. Qed.
Lemma hs_bind {S A B} P (m : SE S A) (f : A -> SE S B) R Q E : hs P m R E -> (forall a, hs (R a) (f a) Q E) -> hs P (sbind m f) Q E.
Proof.
  intros Hm Hf s HP. unfold sbind. specialize (Hm s HP). destruct (m s) as [s' [a|e]]; [|exact Hm]. exact (Hf a s' Hm).
Qed.
Lemma hs_lift {S A} (r : res A) (P : S -> Prop) (Q : A -> S -> Prop) (E : exn -> S -> Prop) :
  (forall a s, r = Ok a -> P s -> Q a s) -> (forall e s, r = Raise e -> P s -> E e s) -> hs P (lift r) Q E.
Proof. intros H1 H2 s HP. cbn. destruct r; auto. Qed.
Lemma hs_get {S} (P : S -> Prop) (Q : S -> S -> Prop) E : (forall s, P s -> Q s s) -> hs P sget Q E.
Proof. intros H s HP. cbn. auto. Qed.
Lemma hs_mod {S} (f : S -> S) (P : S -> Prop) (Q : unit -> S -> Prop) E : (forall s, P s -> Q tt (f s)) -> hs P (smod f) Q E.
Proof. intros H s HP. cbn. auto. Qed.
Lemma hs_pre {S A} (P P' : S -> Prop) (m : SE S A) Q E : (forall s, P s -> P' s) -> hs P' m Q E -> hs P m Q E.
Proof. intros H Hm s HP. exact (Hm s (H s HP)). Qed.
Lemma hs_post {S A} (P : S -> Prop) (m : SE S A) (Q Q' : A -> S -> Prop) (E E' : exn -> S -> Prop) :
  (forall a s, Q a s -> Q' a s) -> (forall e s, E e s -> E' e s) -> hs P m Q E -> hs P m Q' E'.
Proof. intros HQ HE Hm s HP. specialize (Hm s HP). destruct (m s) as [s' [a|e]]; auto. Qed.
(** A pure fact can be moved out of the precondition. *)
Lemma hs_fact {S A} (P : S -> Prop) (F : Prop) (m : SE S A) Q E : (F -> hs P m Q E) -> hs (fun s => P s /\ F) m Q E.
Proof. intros H s [HP HF]. exact (H HF s HP). Qed.
(** A read of the state followed by the rest: the rest may assume the value read. *)
Lemma hs_get_bind {S B} (P : S -> Prop) (f : S -> SE S B) Q E : (forall s0, P s0 -> hs (fun s => s = s0) (f s0) Q E) -> hs P (sbind sget f) Q E.
Proof. intros H s HP. unfold sbind. cbn. exact (H s HP s eq_refl). Qed.
Lemma hs_lift_bind {S A B} (r : res A) (f : A -> SE S B) (P : S -> Prop) Q (E : exn -> S -> Prop) :
  (forall e s, r = Raise e -> P s -> E e s) -> (forall a, r = Ok a -> hs P (f a) Q E) -> hs P (sbind (lift r) f) Q E.
Proof. intros HE Hf s HP. unfold sbind. cbn. destruct r as [a|e]; [exact (Hf a eq_refl s HP)|exact (HE e s eq_refl HP)]. Qed.
Lemma hs_mod_bind {S B} (g : S -> S) (f : unit -> SE S B) (P R : S -> Prop) Q E :
  (forall s, P s -> R (g s)) -> hs R (f tt) Q E -> hs P (sbind (smod g) f) Q E.
Proof. intros H Hf s HP. unfold sbind. cbn. exact (Hf _ (H s HP)). Qed.
Lemma hs_if {S A} (b : bool) (m1 m2 : SE S A) P Q E : (b = true -> hs P m1 Q E) -> (b = false -> hs P m2 Q E) -> hs P (if b then m1 else m2) Q E.
Proof. destruct b; auto. Qed.
