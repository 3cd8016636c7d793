(** * NAUTILUS Navigator: the order of the rows of the front does not matter. *)
From Coq Require Import ZArith List Bool Lia Permutation.
From Verif Require Import Num Py Np Spec NpFacts MNavigator SNavigator PNavigator PNavigator2 PNavigator3 PNavigator4 SNavOrder.
Import ListNotations.

Section Perm.
  Context {A : Type} (p : nat -> nat) (l1 l2 : list A).
  Hypothesis HP : reordered p l1 l2.
  Let n := length l1.
  Lemma reord_onto i : i < n -> exists j, j < n /\ p j = i.
  Proof.
    destruct HP as (_ & H1 & H2). intros Hi.
    assert (P : Permutation (map p (seq 0 n)) (seq 0 n)).
    { apply NoDup_Permutation_bis.
      - assert (G : forall l, NoDup l -> (forall x, In x l -> x < n) -> NoDup (map p l)).
        { induction l as [|x l IH]; intros Hn Hl; cbn; [constructor|]. inversion Hn; subst. constructor.
          - intros C. apply in_map_iff in C. destruct C as (y & E & Hy). apply H2 in E; [|apply Hl; right; exact Hy|apply Hl; left; reflexivity]. subst y. contradiction.
          - apply IH; auto. intros y Hy. apply Hl. right. exact Hy. }
        apply G; [apply seq_NoDup|]. intros x Hx. apply in_seq in Hx. lia.
      - rewrite map_length. lia.
      - intros x Hx. apply in_map_iff in Hx. destruct Hx as (y & <- & Hy). apply in_seq in Hy. apply in_seq. destruct (H1 y); [unfold n in *; lia|]. unfold n in *. lia. }
    assert (In i (map p (seq 0 n))) as Hin. { eapply Permutation_in; [symmetry; exact P|]. apply in_seq. lia. }
    apply in_map_iff in Hin. destruct Hin as (j & E & Hj). apply in_seq in Hj. exists j. split; [lia|exact E].
  Qed.
  (** Items at corresponding positions. *)
  Lemma reord_take i1 i2 r1 r2 : same_rows p n i1 i2 -> take l1 (idx_list i1) = Ok r1 -> take l2 (idx_list i2) = Ok r2 ->
    forall x, In x r1 <-> In x r2.
  Proof.
    intros (B1 & B2 & HS) T1 T2 x. destruct HP as (HL & H1 & H2). unfold take in T1, T2. apply rseq_map_ok in T1. apply rseq_map_ok in T2.
    rewrite Forall_forall in B1, B2. split; intros Hx.
    - destruct (Forall2_In_r _ _ _ _ T1 Hx) as (i & Hi & Ei). apply at_ok in Ei. pose proof (B1 i Hi) as Bi. destruct (reord_onto i Bi) as (j & Hj & <-).
      apply (HS j Hj) in Hi. destruct (Forall2_In_l _ _ _ _ T2 Hi) as (y & Hy & Ey). apply at_ok in Ey. rewrite (proj2 (H1 j Hj)) in Ey. congruence.
    - destruct (Forall2_In_r _ _ _ _ T2 Hx) as (j & Hj & Ej). apply at_ok in Ej. pose proof (B2 j Hj) as Bj. rewrite (proj2 (H1 j Bj)) in Ej.
      apply (HS j Bj) in Hj. destruct (Forall2_In_l _ _ _ _ T1 Hj) as (y & Hy & Ey). apply at_ok in Ey. congruence.
  Qed.
  Lemma reord_idx i1 i2 : same_rows p n i1 i2 -> NoDup (idx_list i1) -> NoDup (idx_list i2) -> Permutation (map p (idx_list i2)) (idx_list i1).
  Proof.
    intros (B1 & B2 & HS) N1 N2. rewrite Forall_forall in B1, B2. destruct HP as (HL & H1 & H2). apply NoDup_Permutation; auto.
    - assert (G : forall l, NoDup l -> (forall x, In x l -> x < n) -> NoDup (map p l)).
      { induction l as [|x l IH]; intros Hn Hl; cbn; [constructor|]. inversion Hn; subst. constructor.
        - intros C. apply in_map_iff in C. destruct C as (y & E & Hy). apply H2 in E; [|apply Hl; right; exact Hy|apply Hl; left; reflexivity]. subst y. contradiction.
        - apply IH; auto. intros y Hy. apply Hl. right. exact Hy. }
      apply G; auto.
    - intros x. split.
      + intros Hx. apply in_map_iff in Hx. destruct Hx as (j & <- & Hj). apply HS; auto.
      + intros Hx. destruct (reord_onto x (B1 x Hx)) as (j & Hj & <-). apply in_map. apply HS; auto.
  Qed.
  Lemma reord_take_perm i1 i2 r1 r2 : same_rows p n i1 i2 -> NoDup (idx_list i1) -> NoDup (idx_list i2) ->
    take l1 (idx_list i1) = Ok r1 -> take l2 (idx_list i2) = Ok r2 -> Permutation r1 r2.
  Proof.
    intros HS N1 N2 T1 T2. pose proof (reord_idx i1 i2 HS N1 N2) as PI. destruct HS as (B1 & B2 & _). destruct HP as (HL & H1 & _).
    assert (E2 : take l1 (map p (idx_list i2)) = Ok r2).
    { rewrite <- T2. unfold take. rewrite map_map. f_equal. apply map_ext_in. intros i Hi. rewrite Forall_forall in B2. unfold at_. rewrite (proj2 (H1 i (B2 i Hi))). reflexivity. }
    unfold take in T1, E2. apply rseq_ok in T1. apply rseq_ok in E2. apply (Permutation_map (at_ l1)) in PI. rewrite E2, T1 in PI.
    apply Permutation_map_inv in PI. destruct PI as (l3 & E3 & P3). replace r2 with l3; [exact P3|].
    clear - E3. revert l3 E3. induction r2 as [|x r2 IH]; intros [|y l3] E3; try discriminate; [reflexivity|]. injection E3 as -> E3. f_equal. auto.
  Qed.
End Perm.

Section Same.
  Context {N : NumOps} (L : OrdLaws N).
  Hypothesis EQ : forall x y : N, neqb x y = true -> x = y.
  Notation vec := (list N).
  Notation mat := (list (list N)).
  Implicit Types (asf : @asf_fn N) (s : nv_state N) (d : nv_dict N) (c : nv_content N) (q : nv_request N) (front : list (list N)).

  Lemma leb_antisym (x y : N) : nleb x y = true -> nleb y x = true -> x = y.
  Proof. intros H1 H2. apply EQ. rewrite (ol_eqb _ L), H1, H2. reflexivity. Qed.
  Lemma min_same (a b : vec) : (forall z, In z a <-> In z b) -> npnanmin a = npnanmin b.
  Proof.
    intros H. destruct (npnanmin a) as [x|e] eqn:Ea.
    - destruct (npnanmin b) as [y|e] eqn:Eb.
      + f_equal. apply (npnanmin_cases L) in Ea. apply (npnanmin_cases L) in Eb.
        destruct Ea as [(A1 & A2 & A3)|(A1 & A2)], Eb as [(B1 & B2 & B3)|(B1 & B2)]; subst; auto.
        * apply leb_antisym; [apply A3; auto; apply H; auto|apply B3; auto; apply H; auto].
        * rewrite B2 in A2 by (apply H; auto). discriminate.
        * rewrite A2 in B2 by (apply H; auto). discriminate.
      + destruct b as [|z b]; [|unfold npnanmin in Eb; destruct (npmin _); discriminate]. destruct a as [|z a]; [discriminate|]. exfalso. apply (H z). left. reflexivity.
    - destruct a as [|z a]; [|unfold npnanmin in Ea; destruct (npmin _); discriminate]. destruct b as [|z b]; [congruence|]. exfalso. apply (H z). left. reflexivity.
  Qed.
  Lemma max_same (a b : vec) : (forall z, In z a <-> In z b) -> npnanmax a = npnanmax b.
  Proof.
    intros H. destruct (npnanmax a) as [x|e] eqn:Ea.
    - destruct (npnanmax b) as [y|e] eqn:Eb.
      + f_equal. apply (npnanmax_cases L) in Ea. apply (npnanmax_cases L) in Eb.
        destruct Ea as [(A1 & A2 & A3)|(A1 & A2)], Eb as [(B1 & B2 & B3)|(B1 & B2)]; subst; auto.
        * apply leb_antisym; [apply B3; auto; apply H; auto|apply A3; auto; apply H; auto].
        * rewrite B2 in A2 by (apply H; auto). discriminate.
        * rewrite A2 in B2 by (apply H; auto). discriminate.
      + destruct b as [|z b]; [|unfold npnanmax in Eb; destruct (npmax _); discriminate]. destruct a as [|z a]; [discriminate|]. exfalso. apply (H z). left. reflexivity.
    - destruct a as [|z a]; [|unfold npnanmax in Ea; destruct (npmax _); discriminate]. destruct b as [|z b]; [congruence|]. exfalso. apply (H z). left. reflexivity.
  Qed.
  Lemma cell_same (m1 m2 : mat) (nav : vec) r : (forall x, In x m1 <-> In x m2) -> forall z, In z (nv_cell m1 nav r) <-> In z (nv_cell m2 nav r).
  Proof.
    intros H z. unfold nv_cell. rewrite !in_map_iff. split; intros (x & <- & Hx); exists x; (split; [reflexivity|]); apply filter_In in Hx; apply filter_In; destruct Hx as [Hx Hb]; (split; [apply H; exact Hx|exact Hb]).
  Qed.
  Lemma bound1_same (m1 m2 : mat) (nav plb pub : vec) r : (forall x, In x m1 <-> In x m2) -> nv_bound1 m1 nav plb pub r = nv_bound1 m2 nav plb pub r.
  Proof.
    intros H. pose proof (cell_same m1 m2 nav r H) as HC. pose proof (min_same _ _ HC) as M1. pose proof (max_same _ _ HC) as M2. unfold nv_bound1.
    destruct (nv_cell m1 nav r) as [|x a] eqn:E1, (nv_cell m2 nav r) as [|y b] eqn:E2; try reflexivity.
    - exfalso. apply (HC y). left. reflexivity.
    - exfalso. apply (HC x). left. reflexivity.
    - rewrite M1, M2. reflexivity.
  Qed.
  Lemma masked_same k (rows1 rows2 : mat) (bounds : vec) bm1 bm2 : (forall x, In x rows1 <-> In x rows2) ->
    rseq (map (fun row => bany (fun x y => nltb y x) row bounds) rows1) = Ok bm1 ->
    rseq (map (fun row => bany (fun x y => nltb y x) row bounds) rows2) = Ok bm2 ->
    is_matrix k rows1 -> length bounds = k -> forall x, In x (nan_rows bm1 rows1) -> In x (nan_rows bm2 rows2).
  Proof.
    intros H E1 E2 Hm Hb x Hx. apply rseq_map_ok in E1. apply rseq_map_ok in E2.
    apply In_nth_error in Hx. destruct Hx as (i & Hi). rewrite nan_rows_nth in Hi.
    destruct (nth_error bm1 i) as [b|] eqn:Eb; [|discriminate]. destruct (nth_error rows1 i) as [row|] eqn:Er; [|discriminate]. injection Hi as <-.
    destruct (Forall2_nth_l _ _ _ _ _ E1 Er) as (b' & Eb' & Hb'). assert (b' = b) by congruence. subst b'.
    assert (Hin : In row rows2) by (apply H; eapply nth_error_In; eauto). apply In_nth_error in Hin. destruct Hin as (j & Hj).
    destruct (Forall2_nth_l _ _ _ _ _ E2 Hj) as (b' & Eb2 & Hb2). assert (b' = b) by congruence. subst b'.
    apply (nth_error_In _ j). rewrite nan_rows_nth, Eb2, Hj. reflexivity.
  Qed.
End Same.

Section Twins.
  Context {N : NumOps} (L : OrdLaws N).
  Hypothesis EQ : forall x y : N, neqb x y = true -> x = y.
  Notation vec := (list N).
  Notation mat := (list (list N)).
  Variables (asf : @asf_fn N) (k : nat) (F1 F2 : mat) (ideal nadir : vec) (vars1 vars2 : option mat) (p : nat -> nat) (used : vec -> Prop).
  Hypothesis HS : setup k F1 ideal nadir vars1.
  Hypothesis HF : reordered p F1 F2.
  Hypothesis HV : reordered_vars p vars1 vars2.
  Hypothesis HU : forall ref, used ref -> proper_asf asf F1 ideal nadir ref /\ no_ties asf F1 ideal nadir ref.
  Let n := length F1.
  Implicit Types (s : nv_state N) (d : nv_dict N) (c : nv_content N) (q : nv_request N).

  Lemma in_same r : In r F1 <-> In r F2.
  Proof.
    destruct HF as (HL & H1 & H2). split; intros H; apply In_nth_error in H; destruct H as (i & Hi).
    - assert (Hlt : i < length F1) by (apply nth_error_Some; congruence). destruct (reord_onto p F1 F2 HF i Hlt) as (j & Hj & <-).
      apply (nth_error_In _ j). rewrite (proj2 (H1 j Hj)). exact Hi.
    - assert (Hlt : i < length F1) by (rewrite HL; apply nth_error_Some; congruence). rewrite (proj2 (H1 i Hlt)) in Hi. eapply nth_error_In; eauto.
  Qed.
  Lemma setup2 : setup k F2 ideal nadir vars2.
  Proof.
    destruct HS as (A & B & C & D). split; [|split; [exact B|split; [exact C|]]].
    - unfold is_matrix in *. rewrite Forall_forall in *. intros r Hr. apply A, in_same, Hr.
    - unfold reordered_vars in HV. destruct vars1 as [v1|], vars2 as [v2|]; try contradiction; auto. destruct HV as (E & _). destruct HF as (E' & _). congruence.
  Qed.

  Record rel s1 s2 : Prop := {
    r_lb : ns_lb s1 = ns_lb s2; r_ub : ns_ub s1 = ns_ub s2; r_bounds : ns_bounds s1 = ns_bounds s2;
    r_step : ns_step s1 = ns_step s2; r_left : ns_left s1 = ns_left s2; r_dist : ns_dist s1 = ns_dist s2;
    r_speed : ns_speed s1 = ns_speed s2; r_ref : ns_ref s1 = ns_ref s2; r_nav : ns_nav s1 = ns_nav s2;
    r_idx : same_rows p n (ns_idx s1) (ns_idx s2);
    r_proj : match ns_proj s1, ns_proj s2 with
             | None, None => True
             | Some a, Some b => exists r, nth_error F1 a = Some r /\ nth_error F2 b = Some r
             | _, _ => False end }.

  Lemma adm_same s1 s2 b r : rel s1 s2 -> ns_front s1 = F1 -> ns_front s2 = F2 ->
    ((exists i, admissible F1 (ns_idx s1) b i /\ nth_error F1 i = Some r) <-> (exists i, admissible F2 (ns_idx s2) b i /\ nth_error F2 i = Some r)).
  Proof.
    intros R _ _. destruct (r_idx _ _ R) as (B1 & B2 & HI). rewrite Forall_forall in B1, B2. destruct HF as (HL & H1 & H2). unfold admissible. split.
    - intros (i & (Hi & row & Hr & Hx) & Er). assert (Hlt : i < length F1) by (apply nth_error_Some; congruence).
      destruct (reord_onto p F1 F2 HF i Hlt) as (j & Hj & <-). exists j. rewrite (proj2 (H1 j Hj)). split; [|exact Er]. split; [apply HI; auto|]. eauto.
    - intros (j & (Hi & row & Hr & Hx) & Er). pose proof (B2 j Hi) as Hj. rewrite (proj2 (H1 j Hj)) in Hr, Er. exists (p j). split; [|exact Er]. split; [apply HI; auto|]. eauto.
  Qed.
  Lemma proper2 ref : used ref -> proper_asf asf F2 ideal nadir ref.
  Proof. intros H. destruct (HU ref H) as [[P1 P2] _]. split; intros row Hr; [apply P1|apply P2]; apply in_same; exact Hr. Qed.

  Lemma proj_same s1 s2 ref a b : rel s1 s2 -> wf k s1 -> wf k s2 -> ns_front s1 = F1 -> ns_front s2 = F2 ->
    ns_ideal s1 = ideal -> ns_ideal s2 = ideal -> ns_nadir s1 = nadir -> ns_nadir s2 = nadir -> used ref ->
    projection asf s1 ref a -> projection asf s2 ref b -> exists r, nth_error F1 a = Some r /\ nth_error F2 b = Some r.
  Proof.
    intros R W1 W2 E1 E2 I1 I2 N1 N2 Hu P1 P2. pose proof (HU ref Hu) as [HP HT].
    apply (projection_best L k) in P1; [|exact W1|rewrite E1, I1, N1; exact HP]. apply (projection_best L k) in P2; [|exact W2|rewrite E2, I2, N2; apply proper2; exact Hu].
    rewrite E1, I1, N1 in P1. rewrite E2, I2, N2 in P2.
    destruct P1 as (A1 & r1 & Hr1 & M1), P2 as (A2 & r2 & Hr2 & M2).
    destruct (proj1 (adm_same s1 s2 (ns_bounds s1) r1 R E1 E2)) as (j & Aj & Ej); [eauto|].
    destruct (proj2 (adm_same s1 s2 (ns_bounds s1) r2 R E1 E2)) as (i & Ai & Ei); [rewrite (r_bounds _ _ R); eauto|].
    rewrite (r_bounds _ _ R) in Aj. assert (r1 = r2).
    { apply HT; [eapply nth_error_In; eauto|eapply nth_error_In; eauto|]. rewrite (ol_eqb _ L). rewrite (proj1 (M1 i r2 Ai Ei)), (proj1 (M2 j r1 Aj Ej)). reflexivity. }
    subst r2. eauto.
  Qed.

  Lemma reprojects_fun s1 s2 ref b1 b2 : rel s1 s2 -> reprojects s1 ref b1 -> reprojects s2 ref b2 -> b1 = b2.
  Proof.
    intros R [(A & ->)|(A & r0 & cl & B & C & ->)] [(A' & ->)|(A' & r0' & cl' & B' & C' & ->)]; rewrite (r_step _ _ R) in *; try congruence; try contradiction.
    rewrite (r_ref _ _ R) in B. congruence.
  Qed.
  Lemma failure_same s1 s2 ref : rel s1 s2 -> wf k s1 -> wf k s2 -> ns_front s1 = F1 -> ns_front s2 = F2 ->
    ns_ideal s1 = ideal -> ns_ideal s2 = ideal -> ns_nadir s1 = nadir -> ns_nadir s2 = nadir -> used ref ->
    forall speed bounds s' q, (fwd_failure asf s1 ref -> forward_spec asf s2 ref speed bounds s' q -> False) /\ (fwd_failure asf s2 ref -> forward_spec asf s1 ref speed bounds s' q -> False).
  Proof.
    intros R W1 W2 E1 E2 I1 I2 N1 N2 Hu speed bounds s' q. pose proof (HU ref Hu) as [HP HT]. pose proof (proper2 ref Hu) as HP2. split.
    - intros [r0 A B C|bm A B C] (again & pi & proj & nav & rows & lb & ub & dist & idx & Hr & Hp & _).
      + destruct Hr as [(D & _)|(D & r1 & cl & D1 & D2 & _)]; [rewrite <- (r_step _ _ R) in D; contradiction|]. rewrite <- (r_ref _ _ R) in D1. congruence.
      + assert (again = true) as -> by (symmetry; eapply reprojects_fun; eauto).
        pose proof (projection_none L k asf s1 ref bm W1 ltac:(rewrite E1, I1, N1; exact HP) B) as [Q _]. specialize (Q C). rewrite E1 in Q.
        apply (projection_best L k) in Hp; [|exact W2|rewrite E2, I2, N2; exact HP2]. destruct Hp as (Ha & row & Hrow & _). rewrite E2 in Ha, Hrow.
        destruct (proj2 (adm_same s1 s2 (ns_bounds s1) row R E1 E2)) as (i & Ai & _); [rewrite (r_bounds _ _ R); eauto|]. exact (Q i Ai).
    - intros [r0 A B C|bm A B C] (again & pi & proj & nav & rows & lb & ub & dist & idx & Hr & Hp & _).
      + destruct Hr as [(D & _)|(D & r1 & cl & D1 & D2 & _)]; [rewrite (r_step _ _ R) in D; contradiction|]. rewrite (r_ref _ _ R) in D1. congruence.
      + assert (again = true) as -> by (eapply reprojects_fun; eauto).
        pose proof (projection_none L k asf s2 ref bm W2 ltac:(rewrite E2, I2, N2; exact HP2) B) as [Q _]. specialize (Q C). rewrite E2 in Q.
        apply (projection_best L k) in Hp; [|exact W1|rewrite E1, I1, N1; exact HP]. destruct Hp as (Ha & row & Hrow & _). rewrite E1 in Ha, Hrow.
        destruct (proj1 (adm_same s1 s2 (ns_bounds s1) row R E1 E2)) as (i & Ai & _); [eauto|]. rewrite (r_bounds _ _ R) in Ai. exact (Q i Ai).
  Qed.

  Lemma box_same (lb ub : vec) : same_rows p n (squeeze_idx (box_idx F1 lb ub)) (squeeze_idx (box_idx F2 lb ub)).
  Proof.
    destruct HF as (HL & H1 & H2). unfold same_rows. rewrite !idx_list_squeeze. split; [apply box_idx_lt|]. split; [unfold n; rewrite HL; apply box_idx_lt|].
    intros i Hi. rewrite !box_idx_spec. rewrite (proj2 (H1 i Hi)). reflexivity.
  Qed.
  Lemma forward_same s1 s2 ref speed bounds s1' s2' q1 q2 : rel s1 s2 -> wf k s1 -> wf k s2 -> ns_front s1 = F1 -> ns_front s2 = F2 ->
    ns_ideal s1 = ideal -> ns_ideal s2 = ideal -> ns_nadir s1 = nadir -> ns_nadir s2 = nadir -> used ref -> length bounds = k ->
    forward_spec asf s1 ref speed bounds s1' q1 -> forward_spec asf s2 ref speed bounds s2' q2 -> rel s1' s2'.
  Proof.
    intros R W1 W2 E1 E2 I1 I2 N1 N2 Hu Hb
      (again & pi & proj & nav & rows & lb & ub & dist & idx & Hr & Hp & Hpr & Hnav & Hrows & Hbs & Hd & Hi & -> & _)
      (again' & pi' & proj' & nav' & rows' & lb' & ub' & dist' & idx' & Hr' & Hp' & Hpr' & Hnav' & Hrows' & Hbs' & Hd' & Hi' & -> & _).
    assert (again' = again) as -> by (symmetry; eapply reprojects_fun; eauto).
    assert (HPr : exists r, nth_error F1 pi = Some r /\ nth_error F2 pi' = Some r).
    { destruct again; [eapply proj_same; eauto|]. pose proof (r_proj _ _ R) as G. rewrite Hp, Hp' in G. exact G. }
    destruct HPr as (r & G1 & G2). rewrite E1 in Hpr, Hrows, Hbs, Hi. rewrite E2 in Hpr', Hrows', Hbs', Hi'.
    assert (proj = r) as -> by congruence. assert (proj' = r) as -> by congruence.
    rewrite <- (r_nav _ _ R), <- (r_left _ _ R) in Hnav'. assert (nav' = nav) as -> by congruence.
    assert (HR : forall x, In x rows <-> In x rows') by (eapply (reord_take p F1 F2 HF); eauto; apply (r_idx _ _ R)).
    assert (HM : is_matrix k rows /\ is_matrix k rows').
    { destruct HS as (Hm & _). destruct setup2 as (Hm' & _). unfold is_matrix in *. rewrite Forall_forall in Hm, Hm'. split; apply Forall_forall; intros x Hx.
      - unfold take in Hrows. apply rseq_map_ok in Hrows. destruct (Forall2_In_r _ _ _ _ Hrows Hx) as (i & _ & Ei). apply at_ok, nth_error_In in Ei. auto.
      - unfold take in Hrows'. apply rseq_map_ok in Hrows'. destruct (Forall2_In_r _ _ _ _ Hrows' Hx) as (i & _ & Ei). apply at_ok, nth_error_In in Ei. auto. }
    destruct Hbs as (Ln & bm & bs & Q1 & Q2 & -> & ->), Hbs' as (Ln' & bm' & bs' & Q1' & Q2' & -> & ->).
    assert (HN : forall x, In x (nan_rows bm rows) <-> In x (nan_rows bm' rows')).
    { intros x. split; [apply (masked_same k rows rows' bounds bm bm')|apply (masked_same k rows' rows bounds bm' bm)]; auto; try apply HM. intros y. symmetry. apply HR. }
    assert (bs' = bs) as ->.
    { rewrite <- (r_lb _ _ R), <- (r_ub _ _ R), N2 in Q2'. rewrite N1 in Q2.
      rewrite (rseq_map_ext _ (nv_bound1 (nan_rows bm rows) nav (ns_lb s1) (ns_ub s1))) in Q2'; [congruence|]. intros i _. symmetry. apply (bound1_same L EQ). exact HN. }
    rewrite N1 in Hd. rewrite N2 in Hd'. assert (dist' = dist) as -> by congruence.
    assert (Lb : length (map fst bs) = k /\ length (map snd bs) = k).
    { apply rseq_map_ok, Forall2_len in Q2. rewrite seq_length, N1 in Q2. destruct HS as (_ & _ & Ek & _). rewrite !map_length. lia. }
    rewrite (nv_reachable_eq k) in Hi by (try apply HS; apply Lb). rewrite (nv_reachable_eq k) in Hi' by (try apply setup2; apply Lb).
    injection Hi as <-. injection Hi' as <-.
    constructor; cbn [ns_lb ns_ub ns_bounds ns_step ns_left ns_dist ns_speed ns_ref ns_nav ns_idx ns_proj]; auto.
    - rewrite (r_left _ _ R), (r_step _ _ R). reflexivity.
    - rewrite (r_left _ _ R). reflexivity.
    - rewrite (r_step _ _ R), (r_speed _ _ R). reflexivity.
    - destruct again; [reflexivity|apply (r_ref _ _ R)].
    - apply box_same.
    - eauto.
  Qed.
  Definition nd_req q : Prop := match q with NReq c => NoDup (idx_list (nc_idx c)) | NStop _ _ _ => True end.
  Record tw s1 s2 (qs : list (nv_request N * nv_request N)) : Prop := {
    t_g1 : ginv k F1 ideal nadir vars1 s1 (map fst qs);
    t_g2 : ginv k F2 ideal nadir vars2 s2 (map snd qs);
    t_rel : rel s1 s2;
    t_nd : Forall (fun x : nv_request N * nv_request N => nd_req (fst x) /\ nd_req (snd x)) qs;
    t_same : Forall (fun x : nv_request N * nv_request N => shows_same p n (fst x) (snd x)) qs }.

  Lemma rel_shows s1 s2 : rel s1 s2 -> ns_ideal s1 = ns_ideal s2 -> ns_nadir s1 = ns_nadir s2 -> shows_same p n (nv_request_of s1) (nv_request_of s2).
  Proof. intros R E1 E2. destruct R. cbn. repeat split; try assumption; apply r_idx0; assumption. Qed.
  Lemma increasing_nodup l : increasing l -> NoDup l.
  Proof.
    unfold increasing. induction l as [|x l IH]; intros H; [constructor|]. inversion H as [|? ? H1 H2]; subst. constructor; [|apply IH; exact H1].
    intros C. rewrite Forall_forall in H2. specialize (H2 x C). lia.
  Qed.
  Lemma take_len {A} (m : list A) l r : take m l = Ok r -> length r = length l.
  Proof. unfold take. intros H. apply rseq_map_ok, Forall2_len in H. symmetry. exact H. Qed.
  Lemma take_zip {A B} (m : list A) (m' : list B) l r r' : take m l = Ok r -> take m' l = Ok r' -> length m = length m' -> take (combine m m') l = Ok (combine r r').
  Proof.
    unfold take. intros H1 H2 HL. apply rseq_map_ok in H1. apply rseq_map_ok in H2. apply rseq_map_ok.
    revert r' H2. induction H1 as [|i a l r E1 H1 IH]; intros r' H2; inversion H2 as [|? b ? ? E2 H2']; subst; cbn [combine]; constructor; auto.
    apply at_ok in E1. apply at_ok in E2. unfold at_. assert (E : nth_error (combine m m') i = Some (a, b)); [|rewrite E; reflexivity].
    clear - E1 E2. revert m' i E1 E2. induction m as [|x m IH]; intros m' i E1 E2; [destruct i; discriminate|]. destruct m' as [|y m']; [destruct i; discriminate|].
    destruct i; cbn in *; [congruence|auto].
  Qed.
  Lemma reord_zip (v1 v2 : mat) : reordered p v1 v2 -> length v1 = length F1 -> reordered p (combine F1 v1) (combine F2 v2).
  Proof.
    intros (A & B & C) E. destruct HF as (A' & B' & C'). assert (Z : length (combine F1 v1) = length F1) by (rewrite combine_length; lia).
    split; [rewrite !combine_length; lia|]. rewrite Z. split; [|exact C'].
    intros i Hi. split; [apply B'; exact Hi|].
    assert (G : forall {X Y} (m : list X) (m' : list Y) j, nth_error (combine m m') j = match nth_error m j, nth_error m' j with Some x, Some y => Some (x, y) | _, _ => None end).
    { clear. intros X Y m. induction m as [|x m IH]; intros m' j; destruct j; cbn; auto; destruct m'; cbn; auto. destruct (nth_error m j); reflexivity. }
    rewrite !G, (proj2 (B' i Hi)), (proj2 (B i ltac:(lia))). reflexivity.
  Qed.

  Lemma tw_init : tw (nv_init F1 ideal nadir vars1) (nv_init F2 ideal nadir vars2) [(nv_start (nv_init F1 ideal nadir vars1), nv_start (nv_init F2 ideal nadir vars2))].
  Proof.
    assert (R : rel (nv_init F1 ideal nadir vars1) (nv_init F2 ideal nadir vars2)).
    { constructor; cbn; auto. destruct HF as (HL & H1 & H2). repeat split; cbn.
      - apply Forall_forall. intros i Hi. apply in_seq in Hi. unfold n. lia.
      - apply Forall_forall. intros i Hi. apply in_seq in Hi. unfold n. lia.
      - intros _. apply in_seq. destruct (H1 i); [assumption|]. lia.
      - intros _. apply in_seq. unfold n in *. lia. }
    constructor; auto.
    - apply (ginv_reach L k asf); [exact HS|constructor].
    - apply (ginv_reach L k asf); [exact setup2|constructor].
    - constructor; [|constructor]. cbn. split; apply seq_NoDup.
    - constructor; [|constructor]. cbn [fst snd]. apply rel_shows; auto.
  Qed.

  Lemma tw_step s1 s2 qs c1 c2 d s1' out1 s2' out2 : tw s1 s2 qs -> In (NReq c1, NReq c2) qs -> nv_validate c1 d = Ok tt ->
    (forall ref, nd_ref d = Some ref -> used ref) ->
    nv_iterate asf (NReq c1) (Some d) s1 = (s1', out1) -> nv_iterate asf (NReq c2) (Some d) s2 = (s2', out2) ->
    nv_validate c2 d = Ok tt /\ same_outcome p n out1 out2 /\ tw s1' s2' (match out1, out2 with Ok q1, Ok q2 => (q1, q2) :: qs | _, _ => qs end).
  Proof.
    intros [G1 G2 R ND SM] Hin Hv Hu H1 H2.
    assert (Hin1 : In (NReq c1) (map fst qs)) by (apply (in_map fst) in Hin; exact Hin).
    assert (Hin2 : In (NReq c2) (map snd qs)) by (apply (in_map snd) in Hin; exact Hin).
    assert (SC : shows_same p n (NReq c1) (NReq c2)) by (rewrite Forall_forall in SM; exact (SM _ Hin)).
    assert (NC : NoDup (idx_list (nc_idx c1)) /\ NoDup (idx_list (nc_idx c2))) by (rewrite Forall_forall in ND; exact (ND _ Hin)).
    assert (Hv2 : nv_validate c2 d = Ok tt). { rewrite <- Hv. unfold nv_validate. destruct SC as (S1 & S2 & _). rewrite S1, S2. reflexivity. }
    split; [exact Hv2|].
    assert (HVv1 : match vars1 with Some v => length v = length F1 | None => True end) by apply HS.
    assert (HVv2 : match vars2 with Some v => length v = length F2 | None => True end) by apply setup2.
    assert (O1 : outcome k asf s1 c1 d s1' out1).
    { eapply nv_outcome; eauto; [apply G1|rewrite (g_ideal _ _ _ _ _ _ _ G1); apply HS|apply (g_reqs _ _ _ _ _ _ _ G1); exact Hin1|]. rewrite (g_vars _ _ _ _ _ _ _ G1), (g_front _ _ _ _ _ _ _ G1). exact HVv1. }
    assert (O2 : outcome k asf s2 c2 d s2' out2).
    { eapply nv_outcome; eauto; [apply G2|rewrite (g_ideal _ _ _ _ _ _ _ G2); apply HS|apply (g_reqs _ _ _ _ _ _ _ G2); exact Hin2|]. rewrite (g_vars _ _ _ _ _ _ _ G2), (g_front _ _ _ _ _ _ _ G2). exact HVv2. }
    pose proof (ginv_step L _ _ _ _ _ _ _ _ _ _ _ _ HS G1 Hin1 O1) as G1'. pose proof (ginv_step L _ _ _ _ _ _ _ _ _ _ _ _ setup2 G2 Hin2 O2) as G2'.
    pose proof G1 as [W1 E1 I1 N1 V1 _]. pose proof G2 as [W2 E2 I2 N2 V2 _].
    pose proof G1' as [_ _ I1' N1' _ _]. pose proof G2' as [_ _ I2' N2' _ _].
    destruct O1 as [rows decs D1 -> T1 T1' ->|ub D1 D1' D1b L1 -> ->|ref sp ub D1 D1' Dr Ds Db L1 Fw ->|ref sp ub D1 D1' Dr Ds Db L1 Ff -> ->];
    destruct O2 as [rows2 decs2 D2 -> T2 T2' ->|ub2 D2 D2' D2b L2 -> ->|ref2 sp2 ub2 D2 D2' Dr2 Ds2 Db2 L2 Fw2 ->|ref2 sp2 ub2 D2 D2' Dr2 Ds2 Db2 L2 Ff2 -> ->]; try congruence;
    try (assert (ub2 = ub) as -> by congruence); try (assert (ref2 = ref) as -> by congruence); try (assert (sp2 = sp) as -> by congruence).
    - assert (SO : shows_same p n (NStop rows decs (nc_idx c1)) (NStop rows2 decs2 (nc_idx c2))).
      { split; [apply SC|]. rewrite E1 in T1. rewrite E2 in T2. rewrite V1 in T1'. rewrite V2 in T2'.
        assert (SR : same_rows p n (nc_idx c1) (nc_idx c2)) by apply SC. unfold reordered_vars in HV.
        destruct vars1 as [v1|], vars2 as [v2|]; try contradiction.
        - destruct T1' as (w1 & -> & T1'), T2' as (w2 & -> & T2').
          split; [apply take_len in T1; apply take_len in T1'; congruence|]. split; [apply take_len in T2; apply take_len in T2'; congruence|].
          eapply (reord_take_perm p (combine F1 v1) (combine F2 v2)) with (i1 := nc_idx c1) (i2 := nc_idx c2); [apply reord_zip; auto| |apply NC|apply NC|apply take_zip; eauto|apply take_zip; eauto].
          rewrite combine_length, HVv1, Nat.min_id. exact SR.
        - subst. eapply (reord_take_perm p F1 F2) with (i1 := nc_idx c1) (i2 := nc_idx c2); eauto; apply NC. }
      split; [exact SO|]. constructor; auto; constructor; auto; cbn; auto.
    - match goal with |- same_outcome _ _ (Ok (nv_request_of ?a)) (Ok (nv_request_of ?b)) /\ _ => assert (R' : rel a b) end.
      { destruct SC as (S1 & S2 & S3 & S4 & S5 & S6 & S7 & S8 & S9 & S10 & S11). destruct R. constructor; cbn; auto. }
      cbn [nv_request_of] in *.
      split; [apply rel_shows; auto; cbn; congruence|]. constructor; auto; constructor; auto; try exact NC. apply rel_shows; auto; cbn; congruence.
    - assert (R' : rel s1' s2') by (eapply (forward_same s1 s2); eauto).
      assert (HN : nd_req (nv_request_of s1') /\ nd_req (nv_request_of s2')).
      { destruct Fw as (? & ? & ? & ? & ? & ? & ? & ? & idx & _ & _ & _ & _ & _ & B1 & _ & Hi & -> & _). destruct Fw2 as (? & ? & ? & ? & ? & ? & ? & ? & idx2 & _ & _ & _ & _ & _ & B2 & _ & Hi2 & -> & _).
        apply bounds_spec_len in B1. apply bounds_spec_len in B2. destruct HS as (Hm & _ & Hn & _). destruct setup2 as (Hm2 & _).
        rewrite E1 in Hi. rewrite E2 in Hi2. rewrite (nv_reachable_eq k) in Hi by (auto; rewrite (proj1 B1) || rewrite (proj1 (proj2 B1)); congruence).
        rewrite (nv_reachable_eq k) in Hi2 by (auto; rewrite (proj1 B2) || rewrite (proj1 (proj2 B2)); congruence). injection Hi as <-. injection Hi2 as <-.
        cbn. rewrite !idx_list_squeeze. split; apply increasing_nodup, box_idx_increasing. }
      split; [apply rel_shows; auto; congruence|]. constructor; auto; constructor; auto. apply rel_shows; auto; congruence.
    - exfalso. eapply (proj2 (failure_same s1 s2 ref R W1 W2 E1 E2 I1 I2 N1 N2 (Hu _ Dr) _ _ _ _)); eauto.
    - exfalso. eapply (proj1 (failure_same s1 s2 ref R W1 W2 E1 E2 I1 I2 N1 N2 (Hu _ Dr) _ _ _ _)); eauto.
    - split; [reflexivity|]. constructor; auto.
      rewrite <- (r_step _ _ R). destruct (ns_step s1 =? 1)%Z; [|exact R]. destruct R. constructor; cbn; auto.
  Qed.
  Lemma tw_all s1 s2 qs : nv_twins asf F1 F2 ideal nadir vars1 vars2 used s1 s2 qs -> tw s1 s2 qs.
  Proof.
    intros H. induction H as [|s1 s2 qs c1 c2 d s1' out1 s2' out2 H IH Hin Hv Hu H1 H2]; [apply tw_init|].
    eapply tw_step; eauto.
  Qed.
End Twins.
