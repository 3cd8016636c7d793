(** * Request objects: proofs. *)
From Coq Require Import ZArith List Bool Lia.
From Verif Require Import Num Py Np MObjects SObjects.
Import ListNotations.

Section Objects.
  Context {S Q D K : Type}.
  Variables (validate : Q -> D -> res unit) (step : K -> Q -> option D -> SE S (option Q)).
  Notation exec := (ob_exec validate step).
  Notation run := (ob_run validate step).
  Notation world := (ob_world S Q D).

  Lemma set_same {A} (l : list A) i a : i < length l -> nth_error (list_set l i a) i = Some a.
  Proof. revert i. induction l as [|b l IH]; intros [|i] H; cbn in *; try lia; auto. apply IH. lia. Qed.
  Lemma set_other {A} (l : list A) i j a : i <> j -> nth_error (list_set l i a) j = nth_error l j.
  Proof. revert i j. induction l as [|b l IH]; intros [|i] [|j] H; cbn; try congruence; auto. Qed.
  Lemma set_out {A} (l : list A) i a : length l <= i -> list_set l i a = l.
  Proof. revert i. induction l as [|b l IH]; intros [|i] H; cbn in *; try lia; auto. f_equal. apply IH. lia. Qed.
  Lemma set_length {A} (l : list A) i a : length (list_set l i a) = length l.
  Proof. revert i. induction l as [|b l IH]; intros [|i]; cbn; auto. Qed.
  Lemma set_fst {A B} (l : list (A * B)) i a b b0 : nth_error l i = Some (a, b0) -> map fst (list_set l i (a, b)) = map fst l.
  Proof. revert i. induction l as [|c l IH]; intros [|i] H; cbn in *; try discriminate; [injection H as ->; reflexivity|]. f_equal. auto. Qed.
  Lemma nth_lt {A} (l : list A) i a : nth_error l i = Some a -> i < length l.
  Proof. intros H. apply nth_error_Some. congruence. Qed.
  Lemma app_keeps {A} (l m : list A) i a : nth_error l i = Some a -> nth_error (l ++ m) i = Some a.
  Proof. intros H. rewrite nth_error_app1; [exact H|eapply nth_lt; eauto]. Qed.
  Lemma app_inv1 {A} (l : list A) b i a : nth_error (l ++ [b]) i = Some a -> nth_error l i = Some a \/ (i = length l /\ a = b).
  Proof.
    intros H. destruct (Nat.lt_ge_cases i (length l)) as [L|L]; [left; rewrite nth_error_app1 in H; auto|right].
    rewrite nth_error_app2 in H by auto. destruct (i - length l) as [|k] eqn:E; cbn in H; [injection H as <-; split; [lia|reflexivity]|destruct k; discriminate].
  Qed.

  (** rejected answers *)
  Lemma rejected i l w w' x : exec (OAnswer i l) w = (w', Raise x) -> w' = w.
  Proof.
    cbn. destruct (nth_error (ow_reqs w) i) as [[q sl]|]; [|discriminate]. destruct (nth_error (ow_dicts w) l); [|discriminate].
    destruct (validate q d); [discriminate|]. intros H. injection H as <- _. reflexivity.
  Qed.

  (** the answer kept *)
  Definition keeps i l (q : Q) (d : D) (w : world) : Prop := nth_error (ow_reqs w) i = Some (q, Some l) /\ nth_error (ow_dicts w) l = Some d.
  Lemma keeps_step i l q d e w : keeps i l q d w -> leaves_alone i l e -> keeps i l q d (fst (exec e w)).
  Proof.
    intros [H1 H2] Ha. unfold keeps. destruct e as [d'|l' d'|j l'|k j]; cbn in Ha |- *.
    - split; auto. apply app_keeps. auto.
    - split; auto. rewrite set_other; auto.
    - destruct (nth_error (ow_reqs w) j) as [[q' sl]|] eqn:E; [|auto]. destruct (nth_error (ow_dicts w) l') as [dd|]; [|auto].
      destruct (validate q' dd); cbn; [|auto]. rewrite set_other; auto.
    - destruct (nth_error (ow_reqs w) j) as [[q' sl]|] eqn:E; [|auto].
      destruct (step k q' (ob_read w sl) (ow_state w)) as [s' [[q1|]|x]]; cbn; auto. split; auto. apply app_keeps. auto.
  Qed.
  Lemma keeps_run i l q d es : forall w, keeps i l q d w -> Forall (leaves_alone i l) es -> keeps i l q d (run es w).
  Proof. induction es as [|e es IH]; intros w H F; cbn; [exact H|]. inversion F; subst. apply IH; auto. apply keeps_step; auto. Qed.
  Lemma accepted_keeps i l q sl d w : nth_error (ow_reqs w) i = Some (q, sl) -> nth_error (ow_dicts w) l = Some d -> validate q d = Ok tt ->
    keeps i l q d (fst (exec (OAnswer i l) w)).
  Proof. intros H1 H2 H3. cbn. rewrite H1, H2, H3. cbn. split; [apply set_same; eapply nth_lt; eauto|auto]. Qed.
  Lemma iterate_uses k i l q d w : keeps i l q d w ->
    ow_state (fst (exec (OIterate k i) w)) = fst (step k q (Some d) (ow_state w)) /\
    (snd (exec (OIterate k i) w) = match snd (step k q (Some d) (ow_state w)) with Ok _ => Ok tt | Raise x => Raise x end) /\
    returned (fst (exec (OIterate k i) w)) = match snd (step k q (Some d) (ow_state w)) with Ok (Some q') => q' :: returned w | _ => returned w end.
  Proof.
    intros [H1 H2]. cbn. rewrite H1. cbn. rewrite H2. destruct (step k q (Some d) (ow_state w)) as [s' [[q1|]|x]]; cbn; repeat split; auto.
    unfold returned. cbn. rewrite map_app, rev_app_distr. reflexivity.
  Qed.

  (** ** Histories *)
  Variable R : S -> list Q -> Prop.
  Hypothesis HR : forall s qs k q resp s' out, R s qs -> In q qs -> (forall d, resp = Some d -> validate q d = Ok tt) ->
    step k q resp s = (s', out) -> R s' (match out with Ok (Some q') => q' :: qs | _ => qs end).
  Definition ob_inv (w : world) : Prop :=
    R (ow_state w) (returned w) /\
    forall i q l, nth_error (ow_reqs w) i = Some (q, Some l) -> exists d, nth_error (ow_dicts w) l = Some d /\ validate q d = Ok tt.
  Lemma inv_exec e w : ob_inv w -> keeps_answers validate e w -> ob_inv (fst (exec e w)).
  Proof.
    intros [H1 H2] Hk. destruct e as [d'|l' d'|j l'|k j]; cbn in Hk |- *.
    - split; [exact H1|]. cbn. intros i q l H. destruct (H2 i q l H) as (d & E & V). exists d. split; auto. apply app_keeps. auto.
    - split; [exact H1|]. cbn. intros i q l H. destruct (H2 i q l H) as (d & E & V). destruct (Nat.eq_dec l' l) as [->|Hn].
      + exists d'. split; [apply set_same; eapply nth_lt; eauto|eauto].
      + exists d. split; auto. rewrite set_other; auto.
    - destruct (nth_error (ow_reqs w) j) as [[q' sl]|] eqn:E; [|split; auto]. destruct (nth_error (ow_dicts w) l') as [dd|] eqn:Ed; [|split; auto].
      destruct (validate q' dd) as [[]|] eqn:EV; cbn; [|split; auto]. split.
      + unfold returned. cbn. erewrite set_fst by eauto. exact H1.
      + cbn. intros i q l H. destruct (Nat.eq_dec j i) as [->|Hn].
        * rewrite set_same in H by (eapply nth_lt; eauto). injection H as <- <-. eauto.
        * rewrite set_other in H by auto. eauto.
    - destruct (nth_error (ow_reqs w) j) as [[q' sl]|] eqn:E; [|split; auto].
      assert (Hin : In q' (returned w)) by (unfold returned; apply -> in_rev; apply (in_map fst _ (q', sl)); eapply nth_error_In; eauto).
      assert (HV : forall d, ob_read w sl = Some d -> validate q' d = Ok tt).
      { intros d H. destruct sl as [l|]; [|discriminate]. cbn in H. destruct (H2 _ _ _ E) as (d' & E' & V). congruence. }
      destruct (step k q' (ob_read w sl) (ow_state w)) as [s' out] eqn:Es.
      pose proof (HR _ _ _ _ _ _ _ H1 Hin HV Es) as G.
      destruct out as [[q1|]|x]; cbn; (split; [|cbn; try exact H2]).
      + unfold returned. cbn. rewrite map_app, rev_app_distr. exact G.
      + intros i q l H. apply app_inv1 in H as [H|[_ H]]; [eauto|discriminate].
      + exact G.
      + exact G.
  Qed.
  Lemma inv_run es : forall w, ob_inv w -> all_keep_answers validate step es w -> ob_inv (run es w).
  Proof. induction es as [|e es IH]; intros w H F; cbn in *; [exact H|]. destruct F as [F1 F2]. apply IH; auto. apply inv_exec; auto. Qed.
  Lemma inv_start s q : R s [q] -> ob_inv (ob_start s q).
  Proof. intros H. split; [exact H|]. cbn. intros [|[|i]] q' l H'; discriminate. Qed.
  Lemma histories s q es : R s [q] -> all_keep_answers validate step es (ob_start s q) -> R (ow_state (run es (ob_start s q))) (returned (run es (ob_start s q))).
  Proof. intros H F. apply inv_run; auto. apply inv_start. auto. Qed.
End Objects.
Lemma unanswered_run {S Q D K} (validate : Q -> D -> res unit) (step : K -> Q -> option D -> SE S (option Q)) i q es : forall w,
  nth_error (ow_reqs w) i = Some (q, None) ->
  Forall (fun e => match e with OAnswer j _ => j <> i | _ => True end) es ->
  nth_error (ow_reqs (ob_run validate step es w)) i = Some (q, None).
Proof.
  induction es as [|e es IH]; intros w H F; cbn [ob_run]; [exact H|]. inversion F; subst. apply IH; auto.
  destruct e as [d'|l' d'|j l'|k j]; cbn; auto.
  - destruct (nth_error (ow_reqs w) j) as [[q' sl]|] eqn:E; [|auto]. destruct (nth_error (ow_dicts w) l') as [dd|]; [|auto].
    destruct (validate q' dd); cbn; [|auto]. rewrite set_other; auto.
  - destruct (nth_error (ow_reqs w) j) as [[q' sl]|] eqn:E; [|auto].
    destruct (step k q' (ob_read w sl) (ow_state w)) as [s' [[q1|]|x]]; cbn; auto. apply app_keeps. auto.
Qed.
Lemma some_inv {S Q D K} (step : K -> Q -> option D -> SE S Q) k q r s s' out : ob_some step k q r s = (s', out) ->
  exists o, step k q r s = (s', o) /\ out = match o with Ok q' => Ok (Some q') | Raise x => Raise x end.
Proof. unfold ob_some. destruct (step k q r s) as [s1 [q1|x]]; intros H; injection H as <- <-; eauto. Qed.

(** A boolean version of [all_keep_answers], for concrete sessions. *)
Definition is_ok (r : res unit) : bool := match r with Ok _ => true | Raise _ => false end.
Definition keepb {S Q D K} (validate : Q -> D -> res unit) (e : ob_event D K) (w : ob_world S Q D) : bool :=
  match e with
  | OEdit l d => forallb (fun r => match r with (q, Some l') => negb (Nat.eqb l' l) || is_ok (validate q d) | _ => true end) (ow_reqs w)
  | _ => true
  end.
Fixpoint keepsb {S Q D K} (validate : Q -> D -> res unit) (step : K -> Q -> option D -> SE S (option Q)) (es : list (ob_event D K)) (w : ob_world S Q D) : bool :=
  match es with [] => true | e :: es' => keepb validate e w && keepsb validate step es' (fst (ob_exec validate step e w)) end.
Lemma keepsb_ok {S Q D K} (validate : Q -> D -> res unit) (step : K -> Q -> option D -> SE S (option Q)) es : forall w,
  keepsb validate step es w = true -> all_keep_answers validate step es w.
Proof.
  induction es as [|e es IH]; intros w H; cbn [keepsb all_keep_answers] in *; [exact I|]. apply andb_prop in H as [H1 H2]. split; auto.
  destruct e; cbn in *; auto. rewrite forallb_forall in H1. intros i q E. apply nth_error_In in E. specialize (H1 _ E). cbn in H1.
  rewrite Nat.eqb_refl in H1. cbn in H1. destruct (validate q d) as [[]|]; [reflexivity|discriminate].
Qed.
Lemma run_app {S Q D K} (validate : Q -> D -> res unit) (step : K -> Q -> option D -> SE S (option Q)) es es' : forall w,
  ob_run validate step (es ++ es') w = ob_run validate step es' (ob_run validate step es w).
Proof. induction es as [|e es IH]; intros w; cbn; auto. Qed.
