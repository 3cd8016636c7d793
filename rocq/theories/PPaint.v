(** * Proofs about PAINT: the loops. *)
From Coq Require Import ZArith List Bool Lia Permutation Sorted.
From Verif Require Import Num Py Np Spec NpFacts MRpm MParetoNav SParetoNav MPaint SPaint.
Import ListNotations.

Lemma set_nth_at {A} (X : list A) y Z w : set_nth (X ++ y :: Z) (length X) w = Some (X ++ w :: Z).
Proof. induction X as [|a X IH]; cbn; [reflexivity|rewrite IH; reflexivity]. Qed.
Lemma set_at {A} (X : list A) y Z w n : n = length X -> set_ (X ++ y :: Z) n w = Ok (X ++ w :: Z).
Proof. intros ->. unfold set_. rewrite set_nth_at. reflexivity. Qed.
Lemma at_at {A} (X : list A) y Z n : n = length X -> at_ (X ++ y :: Z) n = Ok y.
Proof. intros ->. unfold at_. rewrite nth_error_app2 by lia. rewrite Nat.sub_diag. reflexivity. Qed.

Section PPaint.
  Context {N : NumOps} {Cfg : Type}.
  Notation mat := (list (list N)).
  Notation row := (list Z).
  Context (e : pt_env N Cfg) (cfg : Cfg) (P : mat).

  Lemma verts_vertices r v : Forall (fun z => (0 <= z < Z.of_nat (length P))%Z) r -> (pt_verts P r = Ok v <-> vertices P r v).
  Proof.
    intros H. unfold pt_verts. rewrite rseq_map_ok. unfold vertices. revert v. induction H as [|z r Hz H IH]; intros v.
    - split; intros F; inversion F; constructor.
    - split; intros F; inversion F as [|? p ? v' E F']; subst; constructor; try (apply IH; assumption).
      + split; [lia|]. rewrite py_nth_nonneg in E by lia. apply at_ok in E. exact E.
      + rewrite py_nth_nonneg by lia. apply at_ok. apply E.
  Qed.
  Lemma verts_total r : Forall (fun z => (0 <= z < Z.of_nat (length P))%Z) r -> exists v, pt_verts P r = Ok v.
  Proof.
    intros H. induction H as [|z r Hz H IH]; [exists []; reflexivity|]. destruct IH as (v & IH). unfold pt_verts in *. cbn [map].
    rewrite py_nth_nonneg by lia. unfold at_. destruct (nth_error P (Z.to_nat z)) as [p|] eqn:E; [|apply nth_error_None in E; lia].
    cbn [rseq]. rewrite IH. cbn. eauto.
  Qed.
  Lemma vertices_fun r v w : vertices P r v -> vertices P r w -> v = w.
  Proof.
    intros H. revert w. induction H as [|z p r v (Hz & Hp) H IH]; intros w F; inversion F as [|? q ? w' (_ & Hq) F']; subst; [reflexivity|].
    f_equal; [congruence|auto].
  Qed.
  Lemma vertices_In r v p : vertices P r v -> In p v -> In p P.
  Proof. intros H Hp. destruct (Forall2_In_r _ _ _ p H Hp) as (z & _ & _ & E). eapply nth_error_In; exact E. Qed.
  Lemma vertices_len r v : vertices P r v -> length v = length r.
  Proof. intros H. symmetry. apply (Forall2_len _ _ _ H). Qed.

  (** ** Rule 1 *)
  Lemma conflict_spec v os b : pt_conflict e cfg v os = Ok b ->
    if b then exists o, In o os /\ (pt_dominates e (Outcome o) (Polytope v) (Some cfg) = Ok true \/ pt_dominates e (Polytope v) (Outcome o) (Some cfg) = Ok true)
    else forall o, In o os -> pt_dominates e (Outcome o) (Polytope v) (Some cfg) = Ok false /\ pt_dominates e (Polytope v) (Outcome o) (Some cfg) = Ok false.
  Proof.
    revert b. induction os as [|o os IH]; intros b H; cbn in H; [injection H as <-; intros o []|].
    apply rbind_ok in H. destruct H as ([|] & E1 & H); [injection H as <-; exists o; split; [left; reflexivity|auto]|].
    apply rbind_ok in H. destruct H as ([|] & E2 & H); [injection H as <-; exists o; split; [left; reflexivity|auto]|].
    specialize (IH _ H). destruct b.
    - destruct IH as (o' & Ho & Hd). exists o'. split; [right; exact Ho|exact Hd].
    - intros o' [<-|Ho]; auto.
  Qed.
  Definition good (r : row) : Prop := exists v, vertices P r v /\ passes e cfg P v.
  Definition bad (r : row) : Prop := exists v, vertices P r v /\ fails e cfg P v.
  Lemma swap_spec A b B c C : pt_swap (A ++ b :: B ++ c :: C) (length A + S (length B)) (length A) = Ok (A ++ c :: B ++ b :: C).
  Proof.
    unfold pt_swap.
    replace (A ++ b :: B ++ c :: C) with ((A ++ b :: B) ++ c :: C) by (rewrite <- app_assoc; reflexivity).
    rewrite (at_at (A ++ b :: B)) by (rewrite app_length; cbn; lia). cbn [rbind].
    replace ((A ++ b :: B) ++ c :: C) with (A ++ b :: B ++ c :: C) by (rewrite <- app_assoc; reflexivity).
    rewrite at_at by reflexivity. cbn [rbind].
    replace (A ++ b :: B ++ c :: C) with ((A ++ b :: B) ++ c :: C) by (rewrite <- app_assoc; reflexivity).
    rewrite (set_at (A ++ b :: B)) by (rewrite app_length; cbn; lia). cbn [rbind].
    rewrite <- app_assoc. cbn [app]. rewrite set_at by reflexivity. reflexivity.
  Qed.
  Lemma swap_same A c C : pt_swap (A ++ c :: C) (length A) (length A) = Ok (A ++ c :: C).
  Proof. unfold pt_swap. rewrite at_at by reflexivity. cbn [rbind]. rewrite set_at by reflexivity. cbn [rbind]. rewrite set_at by reflexivity. reflexivity. Qed.
  Lemma rule1_spec C : forall A B D' d',
    Forall (row_ok P) C -> Forall bad A -> Forall good B ->
    pt_rule1 e cfg P (seq (length A + length B) (length C)) (A ++ B ++ C) (length A) = Ok (D', d') ->
    exists A' B', D' = A' ++ B' /\ d' = length A' /\ Permutation (A ++ B ++ C) (A' ++ B') /\ Forall bad A' /\ Forall good B'.
  Proof.
    induction C as [|c C IH]; intros A B D' d' HC HA HB H.
    - cbn in H. injection H as <- <-. exists A, B. rewrite app_nil_r. auto.
    - inversion HC as [|? ? (_ & Hc) HC']; subst. cbn [length seq pt_rule1] in H.
      replace (A ++ B ++ c :: C) with ((A ++ B) ++ c :: C) in H by (rewrite app_assoc; reflexivity).
      rewrite at_at in H by (rewrite app_length; lia). cbn [rbind] in H.
      apply rbind_ok in H. destruct H as (v & Ev & H). apply verts_vertices in Ev; [|exact Hc].
      apply rbind_ok in H. destruct H as (nd & End & H). apply rbind_ok in H. destruct H as (b & Eb & H). destruct b.
      + assert (Hbad : bad c).
        { exists v. split; [exact Ev|]. destruct nd; cbn [negb] in Eb; [|left; exact End]. right. apply (conflict_spec _ _ _ Eb). }
        destruct B as [|b B].
        * rewrite app_nil_r, Nat.add_0_r in H. cbn [length] in H. rewrite swap_same in H. cbn [rbind] in H.
          specialize (IH (A ++ [c]) [] D' d' HC'). rewrite app_length in IH. cbn [length] in IH.
          replace (length A + 1 + 0) with (S (length A)) in IH by lia. replace (length A + 1) with (S (length A)) in IH by lia.
          replace ((A ++ [c]) ++ [] ++ C) with (A ++ c :: C) in IH by (rewrite <- app_assoc; reflexivity).
          destruct IH as (A' & B' & E1 & E2 & E3 & E4 & E5); [apply Forall_app; auto|constructor|exact H|].
          exists A', B'. cbn [app]. auto 6.
        * replace ((A ++ b :: B) ++ c :: C) with (A ++ b :: B ++ c :: C) in H by (rewrite <- app_assoc; reflexivity).
          cbn [length] in H. rewrite swap_spec in H. cbn [rbind] in H. inversion HB as [|? ? Hb HB']; subst.
          specialize (IH (A ++ [c]) (B ++ [b]) D' d' HC'). rewrite !app_length in IH. cbn [length] in IH.
          replace (length A + 1 + (length B + 1)) with (S (length A + S (length B))) in IH by lia. replace (length A + 1) with (S (length A)) in IH by lia.
          replace ((A ++ [c]) ++ (B ++ [b]) ++ C) with (A ++ c :: B ++ b :: C) in IH by (rewrite <- !app_assoc; reflexivity).
          destruct IH as (A' & B' & E1 & E2 & E3 & E4 & E5); [apply Forall_app; auto|apply Forall_app; auto|exact H|].
          exists A', B'. split; [exact E1|]. split; [exact E2|]. split; [|auto]. etransitivity; [|exact E3]. apply Permutation_app_head.
          cbn [app]. transitivity (b :: c :: B ++ C); [constructor; symmetry; apply Permutation_middle|].
          transitivity (c :: b :: B ++ C); [constructor|]. constructor. apply Permutation_middle.
      + assert (Hgood : good c).
        { exists v. split; [exact Ev|]. destruct nd; cbn [negb] in Eb; [|discriminate]. split; [exact End|]. exact (conflict_spec _ _ _ Eb). }
        specialize (IH A (B ++ [c]) D' d' HC'). rewrite app_length in IH. cbn [length] in IH.
        replace (length A + (length B + 1)) with (S (length A + length B)) in IH by lia.
        replace (A ++ (B ++ [c]) ++ C) with ((A ++ B) ++ c :: C) in IH by (rewrite <- !app_assoc; reflexivity).
        destruct IH as (A' & B' & E1 & E2 & E3 & E4 & E5); [exact HA|apply Forall_app; auto|exact H|].
        exists A', B'. rewrite <- app_assoc in E3. auto 6.
  Qed.

  (** ** The order *)
  Definition key_le (a b : row) : Prop := key_leb a b = true.
  Lemma key_le_iff a b : key_le a b <-> row_count a < row_count b \/ (row_count a = row_count b /\ (row_min a <= row_min b)%Z).
  Proof.
    unfold key_le, key_leb. rewrite orb_true_iff, andb_true_iff, Nat.ltb_lt, Nat.eqb_eq, Z.leb_le. tauto.
  Qed.
  Lemma key_total a b : key_leb a b = false -> key_le b a.
  Proof.
    intros H. apply key_le_iff. destruct (key_leb a b) eqn:E; [discriminate|]. clear H.
    assert (~ key_le a b) by (unfold key_le; congruence). rewrite key_le_iff in H. lia.
  Qed.
  Lemma key_trans a b c : key_le a b -> key_le b c -> key_le a c.
  Proof. rewrite !key_le_iff. lia. Qed.
  Lemma insert_perm x l : Permutation (x :: l) (insert x l).
  Proof. induction l as [|y l IH]; cbn; [reflexivity|]. destruct (key_leb x y); [reflexivity|]. rewrite <- IH. constructor. Qed.
  Lemma insert_sorted x l : StronglySorted key_le l -> StronglySorted key_le (insert x l).
  Proof.
    induction l as [|y l IH]; intros H; cbn; [repeat constructor|]. inversion H as [|? ? HS HF]; subst.
    destruct (key_leb x y) eqn:E.
    - constructor; [exact H|]. constructor; [exact E|]. eapply Forall_impl; [|exact HF]. intros z Hz. eapply key_trans; [exact E|exact Hz].
    - constructor; [apply IH; exact HS|]. apply (Permutation_Forall (insert_perm x l)). constructor; [apply key_total; exact E|exact HF].
  Qed.
  Lemma sort_spec l T : pt_sort l = Ok T -> Permutation l T /\ StronglySorted key_le T.
  Proof.
    unfold pt_sort. destruct (existsb _ l); [discriminate|]. intros H. injection H as <-. induction l as [|x l (IH1 & IH2)]; cbn; [repeat constructor|].
    split; [rewrite <- insert_perm; constructor; exact IH1|apply insert_sorted; exact IH2].
  Qed.
  Lemma sort_total l : Forall (row_ok P) l -> exists T, pt_sort l = Ok T.
  Proof.
    intros H. unfold pt_sort. replace (existsb _ l) with false; [eauto|]. symmetry. induction H as [|r l (Hr & _) H IH]; [reflexivity|].
    cbn. rewrite IH. destruct r; [congruence|reflexivity].
  Qed.
  Lemma row_count_distinct r n : distinct r n -> row_count r = n.
  Proof.
    intros (l & HD & HI & <-). unfold row_count. apply Permutation_length. apply NoDup_Permutation; [apply NoDup_nodup|exact HD|].
    intros z. rewrite nodup_In, HI. tauto.
  Qed.
  Lemma distinct_row_count r : distinct r (row_count r).
  Proof. exists (nodup Z.eq_dec r). split; [apply NoDup_nodup|]. split; [intros z; apply nodup_In|reflexivity]. Qed.
  Lemma fold_min_least r z : In (fold_left Z.min r z) (z :: r) /\ forall y, In y (z :: r) -> (fold_left Z.min r z <= y)%Z.
  Proof.
    revert z. induction r as [|x r IH]; intros z; cbn [fold_left]; [split; [left; reflexivity|intros y [<-|[]]; lia]|].
    destruct (IH (Z.min z x)) as (I1 & I2). split.
    - destruct I1 as [I1|I1]; [|right; right; exact I1]. destruct (Z.min_spec z x) as [(_ & E)|(_ & E)]; rewrite E in *; [left; exact I1|right; left; exact I1].
    - intros y [<-|[<-|Hy]].
      + specialize (I2 _ (or_introl eq_refl)). lia.
      + specialize (I2 _ (or_introl eq_refl)). lia.
      + apply I2. right. exact Hy.
  Qed.
  Lemma row_min_least r m : least r m -> row_min r = m.
  Proof.
    intros (H1 & H2). destruct r as [|z r]; [destruct H1|]. destruct (fold_min_least r z) as (I1 & I2). cbn [row_min].
    specialize (I2 _ H1). specialize (H2 _ I1). lia.
  Qed.
  Lemma key_le_not_after a b : key_le a b -> not_after a b.
  Proof.
    intros H na nb ma mb H1 H2 H3 H4. apply row_count_distinct in H1. apply row_count_distinct in H2. apply row_min_least in H3. apply row_min_least in H4.
    subst. apply key_le_iff in H. exact H.
  Qed.

  (** ** Rule 2 *)
  Definition alive (r : row) : bool := existsb (fun z => (0 <=? z)%Z) r.
  Definition dead (r : row) : Prop := r <> [] /\ Forall (fun z => z = (-1)%Z) r.
  Lemma ok_alive r : row_ok P r -> alive r = true /\ forall h, at_ r 0 = Ok h -> h <> (-1)%Z.
  Proof. intros (Hn & H). destruct r as [|z r]; [congruence|]. inversion H; subst. cbn. split; [apply orb_true_iff; left; apply Z.leb_le; lia|]. intros h E. injection E as <-. lia. Qed.
  Lemma dead_alive r : dead r -> alive r = false /\ at_ r 0 = Ok (-1)%Z.
  Proof.
    intros (Hn & H). split.
    - clear Hn. induction H as [|z r -> H IH]; [reflexivity|]. cbn. exact IH.
    - destruct r as [|z r]; [congruence|]. inversion H; subst. reflexivity.
  Qed.
  Definition rclash (a b : row) : Prop := exists v w, vertices P a v /\ vertices P b w /\ clash e v w.
  Definition rapart (a b : row) : Prop := exists v w, vertices P a v /\ vertices P b w /\ apart e v w.
  Inductive greedy : list row -> list row -> Prop :=
  | greedy_nil : greedy [] []
  | greedy_keep t T R : greedy T R -> Forall (rapart t) R -> greedy (t :: T) (t :: R)
  | greedy_drop t T R r : greedy T R -> In r R -> rclash t r -> greedy (t :: T) R.

  Lemma clash_spec W : forall X i t b, nth_error X i = Some t -> row_ok P t -> Forall (fun r => row_ok P r \/ dead r) W ->
    pt_clash e P (X ++ W) i (seq (length X) (length W)) = Ok b ->
    if b then exists r, In r (filter alive W) /\ rclash t r else Forall (rapart t) (filter alive W).
  Proof.
    induction W as [|w W IH]; intros X i t b Hi Ht HW H; [cbn in H; injection H as <-; constructor|].
    inversion HW as [|? ? Hw HW']; subst. cbn [length seq pt_clash] in H.
    assert (Hi' : nth_error (X ++ w :: W) i = Some t) by (rewrite nth_error_app1; [exact Hi|apply nth_error_Some; congruence]).
    rewrite (proj2 (at_ok _ _ _) Hi') in H. cbn [rbind] in H. apply rbind_ok in H. destruct H as (v & Ev & H).
    rewrite at_at in H by reflexivity. cbn [rbind] in H. apply verts_vertices in Ev; [|apply Ht].
    assert (IH' : forall b, pt_clash e P (X ++ w :: W) i (seq (S (length X)) (length W)) = Ok b ->
      if b then exists r, In r (filter alive W) /\ rclash t r else Forall (rapart t) (filter alive W)).
    { intros b' H'. apply (IH (X ++ [w]) i t b'); [rewrite nth_error_app1; [exact Hi|apply nth_error_Some; congruence]|exact Ht|exact HW'|].
      rewrite app_length, <- app_assoc. cbn [length app]. replace (length X + 1) with (S (length X)) by lia. exact H'. }
    destruct Hw as [Hw|Hw].
    - destruct (ok_alive w Hw) as (Ha & Hh). apply rbind_ok in H. destruct H as (h & Eh & H). specialize (Hh _ Eh).
      destruct (Z.eqb_spec h (-1)) as [E|_]; [contradiction|]. apply rbind_ok in H. destruct H as (vl & Evl & H).
      apply verts_vertices in Evl; [|apply Hw]. cbn [filter]. rewrite Ha.
      apply rbind_ok in H. destruct H as ([|] & E1 & H); [injection H as <-; exists w; split; [left; reflexivity|exists v, vl; split; [exact Ev|split; [exact Evl|left; exact E1]]]|].
      apply rbind_ok in H. destruct H as ([|] & E2 & H); [injection H as <-; exists w; split; [left; reflexivity|exists v, vl; split; [exact Ev|split; [exact Evl|right; exact E2]]]|].
      specialize (IH' _ H). destruct b.
      + destruct IH' as (r & Hr & Hc). exists r. split; [right; exact Hr|exact Hc].
      + constructor; [|exact IH']. exists v, vl. split; [exact Ev|]. split; [exact Evl|split; assumption].
    - destruct (dead_alive w Hw) as (Ha & Hh). rewrite Hh in H. cbn [rbind] in H. cbn [filter]. rewrite Ha. apply IH'. exact H.
  Qed.

  Lemma rule2_spec : forall U W W0 T', Forall (row_ok P) U -> Forall (fun r => row_ok P r \/ dead r) W ->
    greedy W0 (filter alive W) ->
    pt_rule2 e P (rev (seq 0 (length U))) (U ++ W) = Ok T' -> greedy (U ++ W0) (filter alive T').
  Proof.
    induction U as [|t U IH] using rev_ind; intros W W0 T' HU HW HG H.
    - cbn in H. injection H as <-. exact HG.
    - apply Forall_app in HU. destruct HU as (HU & Ht). inversion Ht as [|? ? Ht' _]; subst.
      rewrite app_length in H. cbn [length] in H. rewrite Nat.add_1_r, seq_S, rev_app_distr in H. cbn [rev app pt_rule2 Nat.add] in H.
      replace ((U ++ [t]) ++ W0) with (U ++ t :: W0) by (rewrite <- app_assoc; reflexivity).
      apply rbind_ok in H. destruct H as (b & Eb & H).
      assert (Eb' : if b then exists r, In r (filter alive W) /\ rclash t r else Forall (rapart t) (filter alive W)).
      { apply (clash_spec W (U ++ [t]) (length U) t b); [rewrite nth_error_app2, Nat.sub_diag by lia; reflexivity|exact Ht'|exact HW|].
        rewrite <- Eb. f_equal. rewrite !app_length. cbn [length]. f_equal; lia. }
      replace ((U ++ [t]) ++ W) with (U ++ t :: W) in H by (rewrite <- app_assoc; reflexivity).
      destruct b.
      + rewrite at_at in H by reflexivity. cbn [rbind] in H. rewrite set_at in H by reflexivity. cbn [rbind] in H.
        assert (Hd : dead (map (fun _ => (-1)%Z) t)).
        { destruct t as [|z t]; [destruct Ht'; congruence|]. split; [discriminate|]. apply Forall_forall. intros x Hx. apply in_map_iff in Hx. destruct Hx as (_ & <- & _). reflexivity. }
        apply (IH (map (fun _ => (-1)%Z) t :: W) (t :: W0) T' HU); [constructor; auto| |exact H].
        cbn [filter]. rewrite (proj1 (dead_alive _ Hd)). destruct Eb' as (r & Hr & Hc). econstructor 3; eassumption.
      + apply (IH (t :: W) (t :: W0) T' HU); [constructor; auto| |exact H]. cbn [filter]. rewrite (proj1 (ok_alive _ Ht')). constructor 2; assumption.
  Qed.

  Lemma greedy_In T R r : greedy T R -> In r R -> In r T.
  Proof. intros H. induction H as [|t T R H IH HF|t T R r' H IH Hr Hc]; [auto| |right; auto]. intros [<-|Hr]; [left; reflexivity|right; auto]. Qed.
  Lemma greedy_sorted T R : greedy T R -> StronglySorted key_le T -> StronglySorted key_le R.
  Proof.
    intros H. induction H as [|t T R H IH HF|t T R r' H IH Hr Hc]; intros HS; inversion HS as [|? ? HS' HF']; subst; [constructor| |auto].
    constructor; [auto|]. apply Forall_forall. intros r Hr. rewrite Forall_forall in HF'. apply HF'. eapply greedy_In; eassumption.
  Qed.
  Lemma greedy_rest T R : greedy T R -> StronglySorted key_le T ->
    exists X, Permutation T (R ++ X) /\ Forall (fun x => exists r, In r R /\ rclash x r /\ key_le x r) X.
  Proof.
    intros H. induction H as [|t T R H IH HF|t T R r' H IH Hr Hc]; intros HS; inversion HS as [|? ? HS' HF']; subst.
    - exists []. split; [reflexivity|constructor].
    - destruct (IH HS') as (X & HP & HX). exists X. split; [cbn; constructor; exact HP|]. eapply Forall_impl; [|exact HX].
      intros x (r & Hr & Hc). exists r. split; [right; exact Hr|exact Hc].
    - destruct (IH HS') as (X & HP & HX). exists (t :: X). split.
      + rewrite HP. apply Permutation_middle.
      + constructor; [|exact HX]. exists r'. split; [exact Hr|]. split; [exact Hc|]. rewrite Forall_forall in HF'. apply HF'. eapply greedy_In; eassumption.
  Qed.
  Lemma rapart_sym a b : rapart a b -> rapart b a.
  Proof. intros (v & w & H1 & H2 & H3 & H4). exists w, v. split; [exact H2|]. split; [exact H1|split; assumption]. Qed.
  Lemma greedy_apart T R : greedy T R -> forall i j a b, i <> j -> nth_error R i = Some a -> nth_error R j = Some b -> rapart a b.
  Proof.
    intros H. induction H as [|t T R H IH HF|t T R r' H IH Hr Hc]; [intros [|i] j a b _ E; discriminate| |exact IH].
    rewrite Forall_forall in HF. intros [|i] [|j] a b Hij Ea Eb; cbn in Ea, Eb.
    - congruence.
    - injection Ea as <-. apply HF. eapply nth_error_In; exact Eb.
    - injection Eb as <-. apply rapart_sym, HF. eapply nth_error_In; exact Ea.
    - apply (IH i j a b); [congruence|assumption|assumption].
  Qed.

  (** ** approximate *)
  Lemma run_spec G R : generates e P G -> pt_run e cfg P = Ok R ->
    exists X K T, Permutation G (X ++ K) /\ Forall bad X /\ Forall good K /\ Permutation K T /\ StronglySorted key_le T /\ greedy T R.
  Proof.
    intros (S & E1 & E2 & HG) H. unfold pt_run in H. rewrite E1, E2 in H. cbn [rbind] in H.
    apply rbind_ok in H. destruct H as ((D' & d') & ER & H). cbn [fst snd] in H.
    destruct (rule1_spec G [] [] D' d' HG) as (X & K & -> & -> & HP & HX & HK); [constructor|constructor|exact ER|]. cbn [app] in HP.
    rewrite skipn_app, Nat.sub_diag, skipn_all in H. cbn [app skipn] in H.
    apply rbind_ok in H. destruct H as (T & ET & H). apply rbind_ok in H. destruct H as (T' & ET' & H). injection H as <-.
    destruct (sort_spec _ _ ET) as (HP2 & HS). exists X, K, T. split; [exact HP|]. split; [exact HX|]. split; [exact HK|]. split; [exact HP2|]. split; [exact HS|].
    rewrite <- (app_nil_r T). apply (rule2_spec T [] [] T'); [|constructor|constructor|rewrite app_nil_r; exact ET'].
    apply (Permutation_Forall HP2). rewrite Forall_forall in HG |- *. intros r Hr. apply HG. rewrite HP. apply in_or_app. right. exact Hr.
  Qed.

  (** The run returns when the oracles do. *)
  Lemma conflict_total (HT : pt_answers e) v os : exists b, pt_conflict e cfg v os = Ok b.
  Proof.
    destruct HT as (_ & HT). induction os as [|o os IH]; cbn; [eauto|].
    destruct (HT (Outcome o) (Polytope v) (Some cfg)) as ([|] & ->); cbn [rbind]; [eauto|].
    destruct (HT (Polytope v) (Outcome o) (Some cfg)) as ([|] & ->); cbn [rbind]; eauto.
  Qed.
  Lemma rule1_total (HT : pt_answers e) C : forall A B, Forall (row_ok P) C ->
    exists D' d', pt_rule1 e cfg P (seq (length A + length B) (length C)) (A ++ B ++ C) (length A) = Ok (D', d').
  Proof.
    induction C as [|c C IH]; intros A B HC; [cbn; eauto|]. inversion HC as [|? ? (_ & Hc) HC']; subst. cbn [length seq pt_rule1].
    replace (A ++ B ++ c :: C) with ((A ++ B) ++ c :: C) by (rewrite app_assoc; reflexivity).
    rewrite at_at by (rewrite app_length; lia). cbn [rbind]. destruct (verts_total c Hc) as (v & ->). cbn [rbind].
    destruct (proj1 HT v (Some cfg)) as (nd & ->). cbn [rbind].
    assert (Hb : exists b, (if negb nd then Ok true else pt_conflict e cfg v P) = Ok b) by (destruct nd; cbn [negb]; [apply conflict_total; exact HT|eauto]).
    destruct Hb as (b & ->). cbn [rbind]. destruct b.
    - destruct B as [|b B].
      + rewrite app_nil_r, Nat.add_0_r. cbn [length]. rewrite swap_same. cbn [rbind].
        destruct (IH (A ++ [c]) [] HC') as (D' & d' & HI). exists D', d'. rewrite <- HI. rewrite app_length. cbn [length]. rewrite <- app_assoc. cbn [app].
        f_equal; [|lia]. f_equal. lia.
      + replace ((A ++ b :: B) ++ c :: C) with (A ++ b :: B ++ c :: C) by (rewrite <- app_assoc; reflexivity). cbn [length]. rewrite swap_spec. cbn [rbind].
        destruct (IH (A ++ [c]) (B ++ [b]) HC') as (D' & d' & HI). exists D', d'. rewrite <- HI. rewrite !app_length. cbn [length]. rewrite <- !app_assoc. cbn [app].
        f_equal; [|lia]. f_equal. lia.
    - destruct (IH A (B ++ [c]) HC') as (D' & d' & HI). exists D', d'. rewrite <- HI. rewrite !app_length. cbn [length]. rewrite <- !app_assoc. cbn [app].
      f_equal. f_equal. lia.
  Qed.
  Lemma clash_total (HT : pt_answers e) W : forall X i t, nth_error X i = Some t -> row_ok P t -> Forall (fun r => row_ok P r \/ dead r) W ->
    exists b, pt_clash e P (X ++ W) i (seq (length X) (length W)) = Ok b.
  Proof.
    induction W as [|w W IH]; intros X i t Hi Ht HW; [cbn; eauto|]. inversion HW as [|? ? Hw HW']; subst. cbn [length seq pt_clash].
    assert (Hi' : nth_error (X ++ w :: W) i = Some t) by (rewrite nth_error_app1; [exact Hi|apply nth_error_Some; congruence]).
    rewrite (proj2 (at_ok _ _ _) Hi'). cbn [rbind]. destruct (verts_total t (proj2 Ht)) as (v & ->). cbn [rbind]. rewrite at_at by reflexivity. cbn [rbind].
    assert (IH' : exists b, pt_clash e P (X ++ w :: W) i (seq (S (length X)) (length W)) = Ok b).
    { destruct (IH (X ++ [w]) i t) as (b & Hb); [rewrite nth_error_app1; [exact Hi|apply nth_error_Some; congruence]|exact Ht|exact HW'|].
      exists b. rewrite <- Hb. rewrite app_length, <- app_assoc. cbn [length app]. f_equal. f_equal. lia. }
    destruct Hw as [Hw|Hw].
    - destruct (ok_alive w Hw) as (Ha & Hh). destruct w as [|h w]; [destruct Hw; congruence|]. specialize (Hh h eq_refl). cbn [at_ nth_error rbind].
      destruct (Z.eqb_spec h (-1)) as [E|_]; [contradiction|]. destruct (verts_total _ (proj2 Hw)) as (vl & ->). cbn [rbind].
      destruct (proj2 HT (Polytope v) (Polytope vl) None) as ([|] & ->); cbn [rbind]; [eauto|].
      destruct (proj2 HT (Polytope vl) (Polytope v) None) as ([|] & ->); cbn [rbind]; [eauto|]. exact IH'.
    - rewrite (proj2 (dead_alive w Hw)). cbn [rbind Z.eqb Pos.eqb]. exact IH'.
  Qed.
  Lemma rule2_total (HT : pt_answers e) : forall U W, Forall (row_ok P) U -> Forall (fun r => row_ok P r \/ dead r) W ->
    exists T', pt_rule2 e P (rev (seq 0 (length U))) (U ++ W) = Ok T'.
  Proof.
    induction U as [|t U IH] using rev_ind; intros W HU HW; [cbn; eauto|].
    apply Forall_app in HU. destruct HU as (HU & Ht). inversion Ht as [|? ? Ht' _]; subst.
    rewrite app_length. cbn [length]. rewrite Nat.add_1_r, seq_S, rev_app_distr. cbn [rev app pt_rule2 Nat.add].
    destruct (clash_total HT W (U ++ [t]) (length U) t) as (b & Eb); [rewrite nth_error_app2, Nat.sub_diag by lia; reflexivity|exact Ht'|exact HW|].
    replace (seq (length U + 1) (length ((U ++ [t]) ++ W) - (length U + 1))) with (seq (length (U ++ [t])) (length W)) by (rewrite !app_length; cbn [length]; f_equal; lia).
    rewrite Eb. cbn [rbind]. replace ((U ++ [t]) ++ W) with (U ++ t :: W) by (rewrite <- app_assoc; reflexivity). destruct b.
    - rewrite at_at by reflexivity. cbn [rbind]. rewrite set_at by reflexivity. cbn [rbind].
      assert (Hd : dead (map (fun _ => (-1)%Z) t)).
      { destruct t as [|z t]; [destruct Ht'; congruence|]. split; [discriminate|]. apply Forall_forall. intros x Hx. apply in_map_iff in Hx. destruct Hx as (_ & <- & _). reflexivity. }
      apply (IH (map (fun _ => (-1)%Z) t :: W) HU). constructor; auto.
    - apply (IH (t :: W) HU). constructor; auto.
  Qed.
  Lemma run_total (HT : pt_answers e) G : generates e P G -> exists R, pt_run e cfg P = Ok R.
  Proof.
    intros (S & E1 & E2 & HG). unfold pt_run. rewrite E1, E2. cbn [rbind].
    destruct (rule1_total HT G [] [] HG) as (D' & d' & ER). cbn [length app Nat.add] in ER. rewrite ER. cbn [rbind fst snd].
    destruct (rule1_spec G [] [] D' d' HG) as (X & K & -> & -> & HP & HX & HK); [constructor|constructor|exact ER|]. cbn [app] in HP.
    rewrite skipn_app, Nat.sub_diag, skipn_all. cbn [app skipn].
    assert (HK' : Forall (row_ok P) K) by (rewrite Forall_forall in HG |- *; intros r Hr; apply HG; rewrite HP; apply in_or_app; right; exact Hr).
    destruct (sort_total K HK') as (T & ET). rewrite ET. cbn [rbind]. destruct (sort_spec _ _ ET) as (HP2 & _).
    destruct (rule2_total HT T []) as (T' & ET'); [apply (Permutation_Forall HP2); exact HK'|constructor|]. rewrite app_nil_r in ET'. rewrite ET'. cbn [rbind]. eauto.
  Qed.
End PPaint.
