(** * What every request of E-NAUTILUS and NAUTILUS Navigator shows: proofs of C96, C97. *)
From Coq Require Import ZArith List Bool Lia.
From Verif Require Import Num Py Np Spec Hoare MENautilus MNavigator.
Import ListNotations.

Lemma hs_get_inv {S B} (P : S -> Prop) (f : S -> SE S B) Q E : (forall s0, P s0 -> hs P (f s0) Q E) -> hs P (sbind sget f) Q E.
Proof. intros H s HP. unfold sbind. cbn. exact (H s HP s HP). Qed.
Lemma hs_assoc {S A B C} (P : S -> Prop) (m : SE S A) (f : A -> SE S B) (g : B -> SE S C) Q E :
  hs P (sbind m (fun a => sbind (f a) g)) Q E -> hs P (sbind (sbind m f) g) Q E.
Proof. intros H s HP. specialize (H s HP). unfold sbind in *. destruct (m s) as [s' [a|e]]; exact H. Qed.
Lemma hs_ret_bind {S A B} (P : S -> Prop) (a : A) (g : A -> SE S B) Q E : hs P (g a) Q E -> hs P (sbind (sret a) g) Q E.
Proof. intros H s HP. exact (H s HP). Qed.
Lemma hs_if_bind {S A B} (P : S -> Prop) (b : bool) (m1 m2 : SE S A) (g : A -> SE S B) Q E :
  (b = true -> hs P (sbind m1 g) Q E) -> (b = false -> hs P (sbind m2 g) Q E) -> hs P (sbind (if b then m1 else m2) g) Q E.
Proof. destruct b; auto. Qed.
Lemma hs_raise {S A} (P : S -> Prop) e (Q : A -> S -> Prop) (E : exn -> S -> Prop) : (forall s, P s -> E e s) -> hs P (sraise e) Q E.
Proof. intros H s HP. cbn. auto. Qed.
Section EN.
  Context {N : NumOps}.
  Variables (F : list (list N)) (ideal nadir : list N) (vars : option (list (list N))).
  Definition en_const (s : en_state N) : Prop := es_front s = F /\ es_ideal s = ideal /\ es_nadir s = nadir /\ es_vars s = vars.
  Definition en_shows (q : en_request N) : Prop :=
    match q with
    | EInit i n => i = ideal /\ n = nadir
    | EReq _ c => ec_ideal c = ideal /\ ec_nadir c = nadir
    | EStop _ _ => True
    end.
  Notation tr m := (hs en_const m (fun q s => en_const s /\ en_shows q) (fun _ s => en_const s)).
  Lemma mk_shows c q : ec_ideal c = ideal -> ec_nadir c = nadir -> en_mk_request c = Ok q -> en_shows q.
  Proof. unfold en_mk_request, rmap. destruct (en_max_index (ec_points c)); cbn; [|discriminate]. intros H1 H2 H. injection H as <-. cbn. auto. Qed.
  Lemma mod_bind {B} (g : en_state N -> en_state N) (f : unit -> SE (en_state N) B) Q E :
    (forall s, en_const s -> en_const (g s)) -> hs en_const (f tt) Q E -> hs en_const (sbind (smod g) f) Q E.
  Proof. apply hs_mod_bind. Qed.
  Ltac go := repeat lazymatch goal with
    | |- hs _ (sbind sget _) _ _ => apply hs_get_inv; intros ? ?
    | |- hs _ (sbind (lift _) _) _ _ => apply hs_lift_bind; [intros ? ? _ ?; assumption|intros ? ?]
    | |- hs _ (sbind (smod _) _) _ _ => apply mod_bind; [intros ? (? & ? & ? & ?); repeat split; assumption|]
    | |- hs _ (sbind (sbind _ _) _) _ _ => apply hs_assoc
    | |- hs _ (sbind (sret _) _) _ _ => apply hs_ret_bind
    | |- hs _ (sbind (if _ then _ else _) _) _ _ => apply hs_if_bind; intros ?
    | |- hs _ (if _ then _ else _) _ _ => apply hs_if; intros ?
    | |- hs _ (sraise _) _ _ => apply hs_raise; intros ? ?; assumption
    end.
  Lemma next_shows km : tr (en_next km).
  Proof.
    unfold en_next. go. apply hs_lift; [|auto]. intros q sN Hm HC. split; auto. eapply mk_shows; [| |exact Hm]; cbn; repeat match goal with HH : en_const _ |- _ => destruct HH as (? & ? & ? & ?) end; auto.
  Qed.
  Lemma iterate_shows km q resp : en_shows q -> tr (en_iterate km q resp).
  Proof.
    intros Hq. destruct q as [i n|mi c|o x]; cbn [en_iterate].
    - destruct resp as [d|]; [|apply hs_raise; auto]. unfold en_handle_initial. go. apply next_shows.
    - destruct resp as [d|]; [|apply hs_raise; auto]. unfold en_handle_request. go.
      + apply hs_lift; [|auto]. intros q sN Hm HC. split; auto. unfold en_stop in Hm. destruct (es_vars _); [|injection Hm as <-; exact I].
        destruct (rseq _); [|discriminate]. cbn in Hm. destruct (npargmin _); [|discriminate]. cbn in Hm. destruct (at_ _ _); [|discriminate]. cbn in Hm. injection Hm as <-. exact I.
      + apply next_shows.
      + apply next_shows.
      + apply hs_lift; [|auto]. intros q sN Hm HC. split; auto. eapply mk_shows; [| |exact Hm]; cbn; repeat match goal with HH : en_const _ |- _ => destruct HH as (? & ? & ? & ?) end; auto.
    - apply hs_ret. intros s HC. split; auto.
  Qed.
  Lemma en_contents s qs : en_reach F ideal nadir vars s qs -> en_const s /\ Forall en_shows qs.
  Proof.
    induction 1 as [|s qs q resp km s' out HR [IH1 IH2] Hin HV H].
    - split; [repeat split|repeat constructor].
    - rewrite Forall_forall in IH2. pose proof (hs_run _ _ _ _ s s' out (iterate_shows km q resp (IH2 q Hin)) IH1 H) as G.
      destruct out as [q'|x]; [destruct G as [G1 G2]; split; [exact G1|constructor; [exact G2|apply Forall_forall; auto]]|split; [exact G|apply Forall_forall; auto]].
  Qed.
End EN.

Lemma nv_ctor_spec front ideal nadir vars :
  (nv_ctor_check front ideal nadir vars = Ok tt <->
   exists rows k rest, front = [rows; k] /\ ideal = k :: rest /\ nadir = ideal /\
     (vars = None \/ exists vrest, vars = Some (rows :: vrest))) /\
  (nv_ctor_check front ideal nadir vars <> Ok tt -> ideal <> [] -> vars <> Some [] ->
   nv_ctor_check front ideal nadir vars = Raise MethodExn).
Proof.
  unfold nv_ctor_check. destruct front as [|rows [|k [|]]].
  1,2,4: split; [split; [discriminate|intros (a & b & c & E & _); discriminate]|auto].
  destruct vars as [[|v vr]|]; cbn [rbind].
  - split; [split; [discriminate|intros (a & b & c & _ & _ & _ & [E|[x E]]); discriminate]|congruence].
  - destruct (Nat.eqb_spec v rows) as [->|Hv]; cbn [rbind].
    + destruct ideal as [|k' rest]; [split; [split; [discriminate|intros (a & b & c & _ & E & _); discriminate]|congruence]|].
      destruct (Nat.eqb_spec k' k) as [->|Hk]; cbn [negb].
      * destruct (list_eq_dec Nat.eq_dec (k :: rest) nadir) as [<-|Hn].
        -- split; [split; [intros _; exists rows, k, rest; repeat split; eauto|auto]|congruence].
        -- split; [split; [discriminate|intros (a & b & c & _ & _ & E & _); congruence]|auto].
      * split; [split; [discriminate|intros (a & b & c & E1 & E2 & _); congruence]|auto].
    + split; [split; [discriminate|intros (a & b & c & E1 & _ & _ & [E|[x E]]); congruence]|auto].
  - destruct ideal as [|k' rest]; [split; [split; [discriminate|intros (a & b & c & _ & E & _); discriminate]|congruence]|].
    destruct (Nat.eqb_spec k' k) as [->|Hk]; cbn [negb].
    + destruct (list_eq_dec Nat.eq_dec (k :: rest) nadir) as [<-|Hn].
      * split; [split; [intros _; exists rows, k, rest; repeat split; eauto|auto]|congruence].
      * split; [split; [discriminate|intros (a & b & c & _ & _ & E & _); congruence]|auto].
    + split; [split; [discriminate|intros (a & b & c & E1 & E2 & _); congruence]|auto].
Qed.
