(** * NIMBUS: demonstration problems and sessions (IEEE doubles). *)
From Coq Require Import ZArith List Bool Lia Floats.
From Verif Require Import Num NumF64 F64Facts Py Np Spec MNimbus SNimbus PNimbus PNimbus2 PNimbus7.
Import ListNotations.

Definition bO : list (list F64) := [[0; 4]; [1; 2]; [2; 1]; [4; 0]]%float.
Definition bD : list (list F64) := [[0; 0]; [1; 0]; [2; 0]; [3; 0]]%float.
Definition bI : list F64 := [0; 0]%float.
Definition bN : list F64 := [4; 4]%float.
Definition bP : nb_problem F64 := PDisc 2 bO bD (fun _ => 1).
(** An achievement function: the first component for the first scalarization, the last for the others. *)
Definition bav : @asf_val F64 := fun a row _ =>
  Ok (match a with AMaxOfTwo _ _ _ _ => hd (nofZ 0) row | _ => last row (nofZ 0) end).

Definition dcls cl lv n : nb_dict F64 := MkBD (Some cl) (Some lv) (Some (VInt n)) None None None None.
Definition dsave ix : nb_dict F64 := MkBD None None None (Some ix) None None None.
Definition dinter ix n : nb_dict F64 := MkBD None None None (Some ix) (Some (VInt n)) None None.
Definition dpref i b : nb_dict F64 := MkBD None None None None None (Some (VInt i)) (Some (VBool b)).

Definition b_classify : nb_dict F64 := dcls [CImprove; CImpairUntil] [0; 2]%float 4.

(** The session classify, save, ask for two intermediate solutions, save none, ask for none, choose. *)
Definition b_ds (t : nat) : list (nb_dict F64) :=
  firstn t [b_classify; dsave [0; 2]%Z; dinter [0; 3]%Z 2; dsave []; dinter [] 0; dpref 1 true].
Definition b_run (t : nat) : nb_state F64 * nb_request F64 * list (nb_request F64) :=
  match nb_demo bav bP bI bN None [] (b_ds t) with Some r => r | None => (MkBS [] [] [] [] PEnd, QClass [], []) end.
Definition b_state (t : nat) : nb_state F64 := fst (fst (b_run t)).
Definition b_req (t : nat) : nb_request F64 := snd (fst (b_run t)).
Definition b_reqs (t : nat) : list (nb_request F64) := snd (b_run t).
Definition is_some {A} (o : option A) : bool := match o with Some _ => true | None => false end.
Lemma some_get {A} (o : option A) (d : A) : is_some o = true -> o = Some (match o with Some r => r | None => d end).
Proof. destruct o; [reflexivity|discriminate]. Qed.
Lemma b_all : forallb (fun t => is_some (nb_demo bav bP bI bN None [] (b_ds t))) (seq 0 7) = true.
Proof. vm_compute. reflexivity. Qed.
Lemma b_ok t : t <= 6 -> nb_demo bav bP bI bN None [] (b_ds t) = Some (b_run t).
Proof.
  intros H. unfold b_run. apply (some_get (nb_demo bav bP bI bN None [] (b_ds t)) (MkBS [] [] [] [] PEnd, QClass [], [])).
  exact (proj1 (forallb_forall (fun t => is_some (nb_demo bav bP bI bN None [] (b_ds t))) (seq 0 7)) b_all t (proj2 (in_seq 7 0 t) (conj (Nat.le_0_l t) (le_n_S _ _ H)))).
Qed.
Lemma b_reach t : t <= 6 -> exists s0, nb_init bav bP bI bN None [] = Ok s0 /\ nb_reach bav bP bI bN s0 (b_state t) (b_reqs t) /\ In (b_req t) (b_reqs t).
Proof. intros H. exact (demo_reach bav bP bI bN None [] (b_ds t) (b_run t) (b_ok t H)). Qed.

Lemma bP_wf : nb_wf ffin bP bI bN.
Proof. repeat split; repeat constructor. Qed.
Lemma bav_nan : nan_on_nan_rows bav.
Proof.
  intros a row ref v Hr F H. injection H as <-. assert (F1 : @nisnan F64 (hd (nofZ 0) row) = true) by (destruct F; [congruence|auto]).
  assert (F2 : @nisnan F64 (last row (nofZ 0)) = true).
  { clear F1. destruct row as [|x row]; [congruence|]. clear Hr. rewrite Forall_forall in F. apply F. clear. revert x. induction row as [|y row IH]; intros x; [left; auto|]. right. apply IH. }
  destruct a; auto.
Qed.
Lemma bav_proper : proper_asf ffin bav.
Proof.
  intros a row ref. eexists. split; [reflexivity|]. intros F. apply (proj2 F64_sign_exact).
  assert (F1 : ffin (hd (nofZ 0) row)) by (destruct F; [reflexivity|auto]).
  assert (F2 : ffin (last row (nofZ 0))).
  { clear F1. induction F as [|x row Hx F IH]; [reflexivity|]. cbn [last]. destruct row; auto. }
  destruct a; auto.
Qed.

