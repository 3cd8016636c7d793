(** * Lemmas about the solvers that hold for every arithmetic. *)
From Coq Require Import String.
From Coq Require Import ZArith List Bool Lia.
From Verif Require Import Num NumXR Py Np Spec NpFacts MRpm MParetoNav MSolvers SSolvers.
Import ListNotations.

Lemma nth_error_ext {A} : forall a b : list A, (forall i, nth_error a i = nth_error b i) -> a = b.
Proof.
  induction a as [|x a IH]; intros [|y b] H; auto.
  - specialize (H 0). discriminate H.
  - specialize (H 0). discriminate H.
  - f_equal; [specialize (H 0); simpl in H; congruence|]. apply IH. intros i. exact (H (S i)).
Qed.

Section Gen.
  Context {N : NumOps}.
  Notation vec := (list N).
  Notation mat := (list (list N)).

  Lemma unit_row_len k i : length (unit_row (N:=N) k i) = k.
  Proof. unfold unit_row. rewrite map_length, seq_length. reflexivity. Qed.
  Lemma unit_row_selects k i : selects (N:=N) k i (unit_row k i).
  Proof.
    split; [apply unit_row_len|]. intros j w H. unfold unit_row in H.
    rewrite nth_error_map in H. destruct (nth_error (seq 0 k) j) as [j'|] eqn:E; [|discriminate].
    injection H as <-.
    assert (Hj : j < length (seq 0 k)) by (apply nth_error_Some; congruence).
    rewrite seq_length in Hj. rewrite (nth_error_nth' _ 0) in E by (rewrite seq_length; exact Hj).
    rewrite seq_nth in E by exact Hj. injection E as <-. simpl. destruct (Nat.eqb j i); reflexivity.
  Qed.

  Lemma bc_row_same w (v : vec) : length v = w -> bc_row w v = Ok v.
  Proof. intros H. unfold bc_row. rewrite H, Nat.eqb_refl. reflexivity. Qed.
  Lemma bc_row_len w (v r : vec) : bc_row w v = Ok r -> length r = w.
  Proof.
    unfold bc_row. destruct (Nat.eqb (length v) w) eqn:E; intros H.
    - injection H as <-. apply Nat.eqb_eq. exact E.
    - destruct v as [|x [|y v]]; try discriminate. injection H as <-. apply repeat_length.
  Qed.
  Lemma bc_row_inv w (v r : vec) : bc_row w v = Ok r -> (length v = w /\ r = v) \/ (exists x, v = [x] /\ r = repeat x w).
  Proof.
    unfold bc_row. destruct (Nat.eqb (length v) w) eqn:E; intros H.
    - injection H as <-. left. split; auto. apply Nat.eqb_eq. exact E.
    - destruct v as [|x [|y v]]; try discriminate. injection H as <-. right. eauto.
  Qed.

  (** Column maxima. *)
  Lemma zip_nth (f : N -> N -> N) : forall (a b : vec) j x y, nth_error a j = Some x -> nth_error b j = Some y -> nth_error (zipw f a b) j = Some (f x y).
  Proof. induction a as [|a0 a IH]; intros [|b0 b] [|j] x y Ha Hb; simpl in *; try discriminate; [congruence|eauto]. Qed.
  Lemma fold_zip_nth (f : N -> N -> N) (m : mat) : forall r j x, nth_error r j = Some x -> is_matrix (length r) m ->
    exists l, Forall2 (fun row y => nth_error row j = Some y) m l /\ nth_error (fold_left (zipw f) m r) j = Some (fold_left f l x).
  Proof.
    induction m as [|a m IH]; intros r j x Hx Hm.
    - exists []. split; [constructor|exact Hx].
    - inversion Hm as [|? ? Ha Hm']; subst. cbn [fold_left].
      destruct (nth_error a j) as [y|] eqn:Ey.
      2:{ apply nth_error_None in Ey. assert (j < length r) by (apply nth_error_Some; congruence). lia. }
      assert (E : length (zipw f r a) = length r) by (rewrite zipw_length; lia).
      destruct (IH (zipw f r a) j (f x y)) as (l & Hl & Hn).
      + apply zip_nth; auto.
      + rewrite E. exact Hm'.
      + exists (y :: l). split; [constructor; auto|exact Hn].
  Qed.
  Lemma fold_zip_length (f : N -> N -> N) (m : mat) : forall r, is_matrix (length r) m -> length (fold_left (zipw f) m r) = length r.
  Proof.
    induction m as [|a m IH]; intros r Hm; [reflexivity|]. inversion Hm as [|? ? Ha Hm']; subst. cbn [fold_left].
    assert (E : length (zipw f r a) = length r) by (rewrite zipw_length; lia).
    rewrite IH; rewrite E; auto.
  Qed.
  Lemma max0_length k (m : mat) v : is_matrix k m -> np_max0 m = Ok v -> length v = k.
  Proof.
    destruct m as [|r m]; [discriminate|]. cbn [np_max0]. intros Hm E. injection E as <-.
    assert (Hr : length r = k) by exact (Forall_inv Hm). rewrite fold_zip_length; [exact Hr|]. rewrite Hr. exact (Forall_inv_tail Hm).
  Qed.
  Lemma max0_nth k (m : mat) v j w : is_matrix k m -> np_max0 m = Ok v -> nth_error v j = Some w ->
    exists l, Forall2 (fun row y => nth_error row j = Some y) m l /\ npmax l = Ok w.
  Proof.
    intros Hm E Hw. pose proof (max0_length k m v Hm E) as Hlen.
    destruct m as [|r m]; [discriminate|]. cbn [np_max0] in E. injection E as <-.
    assert (Hr : length r = k) by exact (Forall_inv Hm).
    assert (Hm' : is_matrix (length r) m) by (rewrite Hr; exact (Forall_inv_tail Hm)).
    assert (Hj : j < k) by (rewrite <- Hlen; apply nth_error_Some; congruence).
    destruct (nth_error r j) as [x|] eqn:Ex; [|apply nth_error_None in Ex; lia].
    destruct (fold_zip_nth nmaximum m r j x Ex Hm') as (l & Hl & Hn). exists (x :: l). split; [constructor; auto|]. cbn [npmax]. congruence.
  Qed.
  Lemma fold_max_isnan (l : vec) : forall x, nisnan x = true -> nisnan (fold_left nmaximum l x) = true.
  Proof. induction l as [|y l IH]; intros x Hx; cbn [fold_left]; auto. apply IH. unfold nmaximum. rewrite Hx, orb_true_r. exact Hx. Qed.
  Lemma fold_max_nan_in (L : OrdLaws N) (l : vec) : forall x, Exists (fun y => nisnan y = true) (x :: l) -> nisnan (fold_left nmaximum l x) = true.
  Proof.
    induction l as [|y l IH]; intros x H.
    - inversion H; subst; auto. inversion H1.
    - cbn [fold_left]. inversion H as [? ? Hx|? ? H']; subst.
      + apply fold_max_isnan. unfold nmaximum. rewrite Hx, orb_true_r. exact Hx.
      + inversion H' as [? ? Hy|? ? H'']; subst.
        * apply fold_max_isnan. unfold nmaximum. rewrite (ol_nan_l N L y x Hy). cbn [orb]. destruct (nisnan x) eqn:E; auto.
        * apply IH. right. exact H''.
  Qed.

  Section Payoff.
    Context (e : sv_env N) (eval : vec -> vec) (n : nat) (bounds : list (N * N)).
    Lemma po_row_ok constr method guess i r : sv_po_row e eval n bounds constr method guess i = Ok r ->
      exists x ok, row_answer e eval n bounds constr method guess i x ok /\ bc_row n (eval x) = Ok r.
    Proof.
      unfold sv_po_row. intros H. apply rbind_ok in H. destruct H as ([x ok] & H1 & H2). exists x, ok. split; [|exact H2].
      exists (MkJob (fun x => sv_weighted (eval x) (unit_row n i)) bounds constr method (Some guess)), (unit_row n i).
      split; [exact H1|]. split; [apply unit_row_selects|]. repeat split.
    Qed.
    Lemma selects_eq k i (a b : vec) : selects k i a -> selects k i b -> a = b.
    Proof.
      intros [Ha Ha'] [Hb Hb']. apply nth_error_ext. intros j.
      destruct (nth_error a j) as [x|] eqn:Ex.
      - assert (j < length a) by (apply nth_error_Some; congruence).
        destruct (nth_error b j) as [y|] eqn:Ey; [|apply nth_error_None in Ey; lia].
        rewrite (Ha' _ _ Ex), (Hb' _ _ Ey). reflexivity.
      - apply nth_error_None in Ex. symmetry. apply nth_error_None. lia.
    Qed.
    Lemma diag_ok (t : mat) (d : vec) : sv_diag n t = Ok d ->
      length d = n /\ forall i r, i < n -> nth_error t i = Some r -> nth_error d i = nth_error r i.
    Proof.
      unfold sv_diag. rewrite rseq_map_ok. intros H. split.
      - rewrite <- (Forall2_len _ _ _ H). apply seq_length.
      - intros i r Hi Hr.
        assert (Hs : nth_error (seq 0 n) i = Some i).
        { rewrite (nth_error_nth' _ 0) by (rewrite seq_length; exact Hi). rewrite seq_nth by exact Hi. reflexivity. }
        destruct (Forall2_nth_l _ _ _ _ _ H Hs) as (v & Hv & Hd). cbn beta in Hd.
        apply rbind_ok in Hd. destruct Hd as (r' & Hr' & Hv'). apply at_ok in Hr'. apply at_ok in Hv'. congruence.
    Qed.
    Lemma seq_nth_error k i : i < k -> nth_error (seq 0 k) i = Some i.
    Proof. intros Hi. rewrite (nth_error_nth' _ 0) by (rewrite seq_length; exact Hi). rewrite seq_nth by exact Hi. reflexivity. Qed.

    (** The table behind a payoff result. *)
    Lemma payoff_table constr guess method id nd :
      sv_payoff e eval n bounds constr guess method = Ok (id, nd) ->
      exists X T, length X = n /\ length T = n /\ is_matrix n T /\
        (forall i x, nth_error X i = Some x -> exists ok,
           row_answer e eval n bounds constr method (match guess with Some g => g | None => map fst bounds end) i x ok) /\
        (forall i x r, nth_error X i = Some x -> nth_error T i = Some r -> bc_row n (eval x) = Ok r) /\
        length id = n /\ (forall i r, nth_error T i = Some r -> nth_error id i = nth_error r i) /\
        (n = 0 /\ nd = [] \/ np_max0 T = Ok nd).
    Proof.
      unfold sv_payoff. set (g := match guess with Some g => g | None => map fst bounds end). intros H.
      apply rbind_ok in H. destruct H as (T & HT & H). apply rbind_ok in H. destruct H as (id' & Hid & H).
      apply rbind_ok in H. destruct H as (nd' & Hnd & H). injection H as -> ->.
      rewrite rseq_map_ok in HT.
      assert (HTl : length T = n) by (rewrite <- (Forall2_len _ _ _ HT); apply seq_length).
      assert (HX : exists X, Forall2 (fun i x => exists ok r, row_answer e eval n bounds constr method g i x ok /\ bc_row n (eval x) = Ok r /\ nth_error T i = Some r) (seq 0 n) X).
      { assert (HS : Forall (fun i => i < n) (seq 0 n)) by (apply Forall_forall; intros i Hi; apply in_seq in Hi; lia).
        assert (HA : Forall (fun i => exists x, exists ok r, row_answer e eval n bounds constr method g i x ok /\ bc_row n (eval x) = Ok r /\ nth_error T i = Some r) (seq 0 n)).
        { apply Forall_forall. intros i Hi. apply in_seq in Hi.
          destruct (Forall2_nth_l _ _ _ _ _ HT (seq_nth_error n i ltac:(lia))) as (r & Hr & Hrow).
          destruct (po_row_ok _ _ _ _ _ Hrow) as (x & ok & H1 & H2). exists x, ok, r. auto. }
        clear - HA. induction HA as [|i l (x & H) _ [X IH]]; [exists []; constructor|]. exists (x :: X). constructor; auto. }
      destruct HX as (X & HX).
      assert (HXl : length X = n) by (rewrite <- (Forall2_len _ _ _ HX); apply seq_length).
      destruct (diag_ok T id Hid) as (Hil & Hdi).
      exists X, T. split; [exact HXl|]. split; [exact HTl|]. split; [|split; [|split; [|split; [exact Hil|split]]]].
      - apply Forall_forall. intros r Hr. apply In_nth_error in Hr. destruct Hr as (i & Hi).
        assert (i < n) by (rewrite <- HTl; apply nth_error_Some; congruence).
        destruct (Forall2_nth_l _ _ _ _ _ HX (seq_nth_error n i ltac:(lia))) as (x & _ & ok & r' & _ & H2 & H3).
        replace r with r' by congruence. exact (bc_row_len _ _ _ H2).
      - intros i x Hx. destruct (Forall2_nth_r _ _ _ _ _ HX Hx) as (i' & Hi' & ok & r & H1 & _).
        assert (i < n) by (rewrite <- HXl; apply nth_error_Some; congruence). rewrite seq_nth_error in Hi' by assumption. injection Hi' as <-. eauto.
      - intros i x r Hx Hr. destruct (Forall2_nth_r _ _ _ _ _ HX Hx) as (i' & Hi' & ok & r' & _ & H2 & H3).
        assert (i < n) by (rewrite <- HXl; apply nth_error_Some; congruence). rewrite seq_nth_error in Hi' by assumption. injection Hi' as <-. congruence.
      - intros i r Hr. apply Hdi; auto. rewrite <- HTl. apply nth_error_Some. congruence.
      - unfold sv_colmax in Hnd. clear - Hnd. destruct n; [left; split; congruence|right; exact Hnd].
    Qed.
  End Payoff.

  (** ** The loop over the reference points *)
  Section Loop.
    Context (e : sv_env N) (eval : vec -> vec) (bounds : list (N * N)) (d : nat) (method : string) (ideal nadir : vec).
    Notation pass := (sv_pass e eval bounds d method ideal nadir).
    Notation loop := (sv_loop e eval bounds d method ideal nadir).
    Notation answer := (ref_answer e eval bounds method ideal nadir).

    Lemma loop_app zs1 zs2 acc : loop (zs1 ++ zs2) acc = (do a <- loop zs1 acc; loop zs2 a).
    Proof. revert acc. induction zs1 as [|z zs IH]; intros acc; [reflexivity|]. cbn [app sv_loop]. destruct (pass z acc) as [a|er]; cbn [rbind]; auto. Qed.
    Lemma loop_inv (P : mat * mat -> Prop) zs : forall acc acc',
      (forall z a a', In z zs -> P a -> pass z a = Ok a' -> P a') -> P acc -> loop zs acc = Ok acc' -> P acc'.
    Proof.
      induction zs as [|z zs IH]; intros acc acc' HP H0 H; cbn [sv_loop] in H; [injection H as <-; exact H0|].
      apply rbind_ok in H. destruct H as (a & Ha & H). apply (IH a acc').
      - intros z' b b' Hz. apply HP. right. exact Hz.
      - apply (HP z acc a); auto. left. reflexivity.
      - exact H.
    Qed.

    (** The three things that can happen in one pass. *)
    Inductive pass_rel (z : vec) (O V : mat) : mat * mat -> Prop :=
    | PFailed x : answer z x false -> pass_rel z O V (O ++ [repeat nnan d], V ++ [repeat nnan (sv_width bounds)])
    | PDropped x : answer z x true -> O <> [] -> sv_above d (eval x) (not_nan_rows O) = Ok true ->
        pass_rel z O V (O ++ [repeat nnan d], V ++ [repeat nnan (sv_width bounds)])
    | PKept x fr xr : answer z x true -> (O = [] \/ sv_above d (eval x) (not_nan_rows O) = Ok false) ->
        bc_row d (eval x) = Ok fr -> bc_row (sv_width bounds) x = Ok xr -> pass_rel z O V (O ++ [fr], V ++ [xr]).
    Lemma pass_ok z O V acc' : pass z (O, V) = Ok acc' -> pass_rel z O V acc'.
    Proof.
      unfold sv_pass. cbn [fst snd]. intros H. apply rbind_ok in H. destruct H as ([x ok] & H1 & H). cbn [fst snd] in H.
      assert (HA : answer z x ok).
      { eexists. split; [exact H1|]. cbn. repeat split. }
      destruct ok; cbn [negb] in H.
      - apply rbind_ok in H. destruct H as (ab & Hab & H).
        destruct (negb ab || Nat.ltb (length O) 1) eqn:E.
        + apply rbind_ok in H. destruct H as (fr & Hf & H). apply rbind_ok in H. destruct H as (xr & Hx & H). injection H as <-.
          apply (PKept z O V x); auto. apply orb_true_iff in E. destruct E as [E|E].
          * right. destruct ab; [discriminate|exact Hab].
          * left. apply Nat.ltb_lt in E. destruct O; [reflexivity|cbn in E; lia].
        + injection H as <-. apply orb_false_iff in E. destruct E as [E1 E2]. destruct ab; [|discriminate].
          apply (PDropped z O V x); auto. intros ->. discriminate E2.
      - injection H as <-. apply (PFailed z O V x). exact HA.
    Qed.
    Lemma answer_fun z x ok x' ok' : answer z x ok -> answer z x' ok' -> x' = x /\ ok' = ok.
    Proof.
      intros ([f b c m g] & H1 & H2 & H3 & H4 & H5 & H6) ([f' b' c' m' g'] & H1' & H2' & H3' & H4' & H5' & H6').
      cbn in *. subst. rewrite H1 in H1'. injection H1' as -> ->. auto.
    Qed.
    Lemma pass_grows z O V O' V' : pass z (O, V) = Ok (O', V') -> exists o v, O' = O ++ [o] /\ V' = V ++ [v].
    Proof. intros H. apply pass_ok in H. inversion H; subst; eauto. Qed.
    Lemma loop_grows zs : forall O V O' V', loop zs (O, V) = Ok (O', V') ->
      exists o v, O' = O ++ o /\ V' = V ++ v /\ length o = length zs /\ length v = length zs.
    Proof.
      induction zs as [|z zs IH]; intros O V O' V' H; cbn [sv_loop] in H.
      - injection H as <- <-. exists [], []. rewrite !app_nil_r. auto.
      - apply rbind_ok in H. destruct H as ([O1 V1] & H1 & H2). apply pass_grows in H1. destruct H1 as (o & v & -> & ->).
        apply IH in H2. destruct H2 as (o' & v' & -> & -> & L1 & L2). exists (o :: o'), (v :: v').
        rewrite <- !app_assoc. cbn. auto.
    Qed.
    Lemma loop_called zs : forall acc acc' z, loop zs acc = Ok acc' -> In z zs -> exists x ok, answer z x ok.
    Proof.
      induction zs as [|z0 zs IH]; intros acc acc' z H Hz; [destruct Hz|]. cbn [sv_loop] in H; apply rbind_ok in H; destruct H as (a & H1 & H2). destruct Hz as [<-|Hz].
      - destruct acc as [O V]. apply pass_ok in H1. inversion H1; subst; eauto.
      - eauto.
    Qed.

    (** Rows that are not all NaN. *)
    Lemma not_nan_app (a b : mat) : not_nan_rows (a ++ b) = not_nan_rows a ++ not_nan_rows b.
    Proof. apply filter_app. Qed.
    Lemma not_nan_In (m : mat) r : In r (not_nan_rows m) <-> In r m /\ all_nan r = false.
    Proof. unfold not_nan_rows. rewrite filter_In, negb_true_iff. tauto. Qed.
    Lemma all_nan_repeat (L : OrdLaws N) k : all_nan (repeat (nnan (n:=N)) k) = true.
    Proof. unfold all_nan. induction k; cbn; auto. rewrite (ol_nan N L). exact IHk. Qed.
    Lemma not_nan_one (r : vec) : not_nan_rows [r] = if all_nan r then [] else [r].
    Proof. unfold not_nan_rows. cbn. destruct (all_nan r); reflexivity. Qed.
    Lemma some_not_all (r : vec) : Exists (fun v => nisnan v = false) r <-> all_nan r = false.
    Proof.
      unfold all_nan. induction r as [|v r IH]; cbn; split; intros H; try (inversion H; fail).
      - inversion H; subst; [rewrite H1; reflexivity|]. apply andb_false_iff. right. apply IH. assumption.
      - apply andb_false_iff in H. destruct H as [H|H]; [left; exact H|right; apply IH; exact H].
    Qed.

    (** The comparison of line 242, for rows of the right length. *)
    Lemma above_iff f (m : mat) b : length f = d -> is_matrix d m -> sv_above d f m = Ok b -> (b = true <-> forall g, In g m -> above f g).
    Proof.
      intros Hf Hm. unfold sv_above. rewrite bcast2_eq by (rewrite repeat_length; auto). cbn [rbind]. intros H.
      apply rbind_ok in H. destruct H as (rows & Hr & H). injection H as <-. rewrite rseq_map_ok in Hr.
      rewrite forallb_forall. split.
      - intros HA g Hg. destruct (Forall2_In_l _ _ _ _ Hr Hg) as (row & Hrow & Hb).
        specialize (HA row Hrow). unfold is_matrix in Hm. rewrite Forall_forall in Hm. specialize (Hm g Hg).
        rewrite bcast2_eq in Hb by congruence. injection Hb as <-. assert (HL : length g = length f) by congruence. clear - HA HL. revert g HL HA.
        induction f as [|y f IH]; intros [|x g] HL HA; try discriminate; [constructor|]. cbn in HA. apply andb_true_iff in HA. destruct HA as [H1 H2].
        constructor; [exact H1|]. apply IH; auto.
      - intros HA row Hrow. destruct (Forall2_In_r _ _ _ _ Hr Hrow) as (g & Hg & Hb). unfold is_matrix in Hm. rewrite Forall_forall in Hm.
        specialize (HA g Hg). rewrite bcast2_eq in Hb by (rewrite (Hm g Hg); auto). injection Hb as <-.
        clear - HA. induction HA; cbn; auto. rewrite H. exact IHHA.
    Qed.
    Lemma above_total f (m : mat) : length f = d -> is_matrix d m -> exists b, sv_above d f m = Ok b.
    Proof.
      intros Hf Hm. unfold sv_above. rewrite bcast2_eq by (rewrite repeat_length; auto). cbn [rbind].
      assert (HR : exists rows, rseq (map (fun r => bcast2 nltb r f) m) = Ok rows).
      { clear - Hf Hm. induction Hm as [|r m Hr Hm [rows IH]]; [exists []; reflexivity|]. cbn [map rseq]. rewrite bcast2_eq by congruence. rewrite IH. cbn. eauto. }
      destruct HR as (rows & ->). cbn. eauto.
    Qed.
    Lemma loop_matrix zs O V O' V' : is_matrix d O -> loop zs (O, V) = Ok (O', V') -> is_matrix d O'.
    Proof.
      intros H0 H. apply (loop_inv (fun a => is_matrix d (fst a)) zs (O, V) (O', V')); auto.
      intros z [O1 V1] a' _ H1 Hp. apply pass_ok in Hp. cbn [fst] in *.
      inversion Hp; subst; cbn [fst]; apply Forall_app; split; auto; constructor; auto.
      - apply repeat_length. - apply repeat_length. - eapply bc_row_len; eauto.
    Qed.

    (** First optimisation failed: nothing is kept. *)
    Lemma loop_all_nan (L : OrdLaws N) zs : forall O V O' V', O <> [] -> not_nan_rows O = [] -> not_nan_rows V = [] ->
      (forall z x, In z zs -> answer z x true -> length (eval x) = d) ->
      loop zs (O, V) = Ok (O', V') -> not_nan_rows O' = [] /\ not_nan_rows V' = [].
    Proof.
      intros O V O' V' HO HnO HnV Hlen H.
      apply (loop_inv (fun a => fst a <> [] /\ not_nan_rows (fst a) = [] /\ not_nan_rows (snd a) = []) zs (O, V) (O', V')) in H.
      - cbn in H. tauto.
      - intros z [O1 V1] a' Hz (H1 & H2 & H3) Hp. apply pass_ok in Hp. cbn [fst snd] in *.
        assert (HX : fst (O1 ++ [repeat nnan d], V1 ++ [repeat nnan (sv_width bounds)]) <> [] /\
                     not_nan_rows (fst (O1 ++ [repeat nnan d], V1 ++ [repeat nnan (sv_width bounds)])) = [] /\
                     not_nan_rows (snd (O1 ++ [repeat nnan d], V1 ++ [repeat nnan (sv_width bounds)])) = []).
        { cbn [fst snd]. split; [destruct O1; discriminate|]. rewrite !not_nan_app, !not_nan_one, !(all_nan_repeat L), H2, H3. auto. }
        inversion Hp as [x Ha E|x Ha Hne Hab E|x fr xr Ha Hor Hf Hx E]; subst; auto.
        exfalso. destruct Hor as [Hor|Hab]; [contradiction|]. rewrite H2 in Hab.
        pose proof (above_iff (eval x) [] false (Hlen z x Hz Ha) (Forall_nil _) Hab) as HI.
        assert (false = true) by (apply HI; intros g []). discriminate.
      - cbn. auto.
    Qed.

    (** First optimisation succeeded: every success is kept, or is above a kept one. *)
    Lemma loop_kept (L : OrdLaws N) zs : forall O V O' V', is_matrix d O -> (O = [] \/ not_nan_rows O <> []) ->
      (forall z x, In z zs -> answer z x true -> length (eval x) = d /\ Exists (fun v => nisnan v = false) (eval x)) ->
      (O = [] -> forall z x ok, hd_error zs = Some z -> answer z x ok -> ok = true) ->
      loop zs (O, V) = Ok (O', V') ->
      forall z x, In z zs -> answer z x true ->
        In (eval x) (not_nan_rows O') \/ (not_nan_rows O' <> [] /\ exists g, In g (not_nan_rows O') /\ above (eval x) g).
    Proof.
      induction zs as [|z0 zs IH]; intros O V O' V' HM HO Hlen Hfirst H z x Hz Ha; [destruct Hz|].
      cbn [sv_loop] in H. apply rbind_ok in H. destruct H as ([O1 V1] & H1 & H2).
      assert (HM1 : is_matrix d O1).
      { apply (loop_matrix [z0] O V O1 V1 HM). cbn [sv_loop]. rewrite H1. reflexivity. }
      pose proof (loop_grows zs _ _ _ _ H2) as (o2 & v2 & EO & _ & _). apply pass_ok in H1.
      assert (HO1 : not_nan_rows O1 <> []).
      { inversion H1 as [y Hy E|y Hy Hne Hab E|y fr xr Hy Hor Hf Hx E]; subst.
        - destruct HO as [->|HO]; [|rewrite not_nan_app; intros E2; apply app_eq_nil in E2; tauto].
          assert (false = true) by (eapply (Hfirst eq_refl z0); [reflexivity|exact Hy]). discriminate.
        - destruct HO as [->|HO]; [contradiction|rewrite not_nan_app; intros E2; apply app_eq_nil in E2; tauto].
        - destruct (Hlen z0 y (or_introl eq_refl) Hy) as [Hd Hn]. rewrite (bc_row_same d _ Hd) in Hf. injection Hf as <-.
          rewrite not_nan_app, not_nan_one. apply some_not_all in Hn. rewrite Hn. intros E2. apply app_eq_nil in E2. destruct E2; discriminate. }
      destruct Hz as [->|Hz].
      - destruct (Hlen z x (or_introl eq_refl) Ha) as [Hd Hn].
        inversion H1 as [y Hy E|y Hy Hne Hab E|y fr xr Hy Hor Hf Hx E]; subst; destruct (answer_fun _ _ _ _ _ Ha Hy) as [-> Eok]; try discriminate Eok.
        + right. assert (HnO : is_matrix d (not_nan_rows O)) by (apply Forall_forall; intros g Hg; apply not_nan_In in Hg; unfold is_matrix in HM; rewrite Forall_forall in HM; apply HM; tauto).
          destruct HO as [->|HO]; [contradiction|].
          pose proof (proj1 (above_iff _ _ _ Hd HnO Hab) eq_refl) as HA.
          destruct (not_nan_rows O) as [|g r] eqn:EO; [congruence|].
          assert (Hg : In g (not_nan_rows ((O ++ [repeat nnan d]) ++ o2))) by (rewrite !not_nan_app, EO; left; reflexivity).
          split; [intros EE; rewrite EE in Hg; destruct Hg|]. exists g. split; [exact Hg|]. apply HA. left. reflexivity.
        + left. rewrite (bc_row_same d _ Hd) in Hf. injection Hf as <-. rewrite !not_nan_app, not_nan_one. apply some_not_all in Hn. rewrite Hn.
          apply in_or_app. left. apply in_or_app. right. left. reflexivity.
      - eapply (IH O1 V1 O' V'); eauto.
        + intros z' x' Hz'. apply Hlen. right. exact Hz'.
        + intros E. subst O1. contradiction HO1. reflexivity.
    Qed.

    (** Where the rows come from. *)
    Lemma loop_origin (L : OrdLaws N) zs O' V' :
      (forall z x, In z zs -> answer z x true -> length (eval x) = d) ->
      loop zs ([], []) = Ok (O', V') ->
      forall f, In f (not_nan_rows O') -> exists z x, In z zs /\ answer z x true /\ f = eval x.
    Proof.
      intros Hlen H.
      cut ((fun a : mat * mat => forall f, In f (not_nan_rows (fst a)) -> exists z x, In z zs /\ answer z x true /\ f = eval x) (O', V')); [auto|].
      revert H. apply loop_inv.
      - intros z [O V] a' Hz HI Hp f Hf. apply pass_ok in Hp. cbn [fst] in *.
        assert (HN : In f (not_nan_rows (O ++ [repeat nnan d])) -> exists z x, In z zs /\ answer z x true /\ f = eval x).
        { rewrite not_nan_app, not_nan_one, (all_nan_repeat L), app_nil_r. apply HI. }
        inversion Hp as [y Hy E|y Hy Hne Hab E|y fr xr Hy Hor Hbf Hbx E]; subst; cbn [fst] in Hf; auto.
        rewrite not_nan_app, not_nan_one in Hf. apply in_app_or in Hf. destruct Hf as [Hf|Hf]; [apply HI; exact Hf|].
        destruct (all_nan fr); [destruct Hf|]. destruct Hf as [<-|[]]. rewrite (bc_row_same d _ (Hlen z y Hz Hy)) in Hbf. injection Hbf as <-. exists z, y. auto.
      - intros f [].
    Qed.

    (** Every kept row after the first fails to be above one of the rows before it. *)
    Lemma above_false f (m : mat) : length f = d -> is_matrix d m -> sv_above d f m = Ok false -> exists g, In g m /\ ~ above f g.
    Proof.
      intros Hf Hm. unfold sv_above. rewrite bcast2_eq by (rewrite repeat_length; auto). cbn [rbind]. intros H.
      apply rbind_ok in H. destruct H as (rows & Hr & H). injection H as H. rewrite rseq_map_ok in Hr.
      revert Hm. induction Hr as [|g row m rows Hb Hr IH]; intros Hm; [discriminate|].
      inversion Hm as [|? ? Hg Hm']; subst. cbn in H. apply andb_false_iff in H. destruct H as [H|H].
      - exists g. split; [left; reflexivity|]. rewrite bcast2_eq in Hb by congruence. injection Hb as <-. intros HA.
        assert (E : forallb (fun b : bool => b) (zipw nltb g f) = true).
        { clear - HA. induction HA; cbn; auto. rewrite H. exact IHHA. }
        congruence.
      - destruct (IH H Hm') as (g' & Hg' & Ha). exists g'. split; [right; exact Hg'|exact Ha].
    Qed.
    Lemma loop_filter (L : OrdLaws N) zs O' V' :
      (forall z x, In z zs -> answer z x true -> length (eval x) = d /\ Exists (fun v => nisnan v = false) (eval x)) ->
      loop zs ([], []) = Ok (O', V') ->
      forall k f, nth_error (not_nan_rows O') (S k) = Some f -> exists m g, m <= k /\ nth_error (not_nan_rows O') m = Some g /\ ~ above f g.
    Proof.
      intros Hlen H.
      cut ((fun a : mat * mat => is_matrix d (fst a) /\ forall k f, nth_error (not_nan_rows (fst a)) (S k) = Some f -> exists m g, m <= k /\ nth_error (not_nan_rows (fst a)) m = Some g /\ ~ above f g) (O', V')); [cbn; tauto|].
      revert H. apply loop_inv.
      - intros z [O V] a' Hz (HM & HI) Hp. apply pass_ok in Hp. cbn [fst] in *.
        assert (HN : is_matrix d (O ++ [repeat nnan d])) by (apply Forall_app; split; auto; constructor; auto; apply repeat_length).
        assert (HE : not_nan_rows (O ++ [repeat nnan d]) = not_nan_rows O) by (rewrite not_nan_app, not_nan_one, (all_nan_repeat L), app_nil_r; reflexivity).
        inversion Hp as [y Hy E|y Hy Hne Hab E|y fr xr Hy Hor Hbf Hbx E]; subst; cbn [fst].
        + rewrite HE. auto.
        + rewrite HE. auto.
        + destruct (Hlen z y Hz Hy) as (E1 & E2). rewrite (bc_row_same d _ E1) in Hbf. injection Hbf as <-. apply some_not_all in E2.
          split; [apply Forall_app; split; auto; constructor; auto|].
          rewrite not_nan_app, not_nan_one, E2. intros k f Hk.
          destruct (Nat.lt_ge_cases (S k) (length (not_nan_rows O))) as [Lt|Ge].
          * rewrite nth_error_app1 in Hk by exact Lt. destruct (HI k f Hk) as (m & g & Hm & Hg & Ha). exists m, g. split; [exact Hm|]. split; [|exact Ha]. rewrite nth_error_app1; [exact Hg|lia].
          * rewrite nth_error_app2 in Hk by exact Ge. destruct (S k - length (not_nan_rows O)) as [|r] eqn:Er; [|destruct r; discriminate]. injection Hk as <-.
            destruct Hor as [->|Hab]; [cbn in *; lia|].
            assert (HnO : is_matrix d (not_nan_rows O)) by (apply Forall_forall; intros g Hg; apply not_nan_In in Hg; unfold is_matrix in HM; rewrite Forall_forall in HM; apply HM; tauto).
            destruct (above_false (eval y) _ E1 HnO Hab) as (g & Hg & Ha). apply In_nth_error in Hg. destruct Hg as (m & Hm).
            assert (m < length (not_nan_rows O)) by (apply nth_error_Some; congruence).
            exists m, g. split; [lia|]. split; [|exact Ha]. rewrite nth_error_app1; auto.
      - cbn. split; [constructor|]. intros k f Hk. destruct k; discriminate.
    Qed.

    (** The two arrays correspond row by row. *)
    Lemma loop_aligned (L : OrdLaws N) zs O' V' :
      (forall z x, In z zs -> answer z x true ->
         length (eval x) = d /\ Exists (fun v => nisnan v = false) (eval x) /\ length x = sv_width bounds /\ Exists (fun v => nisnan v = false) x) ->
      loop zs ([], []) = Ok (O', V') ->
      Forall2 (fun x f => f = eval x /\ exists z, In z zs /\ answer z x true) (not_nan_rows V') (not_nan_rows O').
    Proof.
      intros Hlen H.
      cut ((fun a : mat * mat => Forall2 (fun x f => f = eval x /\ exists z, In z zs /\ answer z x true) (not_nan_rows (snd a)) (not_nan_rows (fst a))) (O', V')); [auto|].
      revert H. apply loop_inv.
      2:{ constructor. }
      intros z [O V] a' Hz HI Hp. apply pass_ok in Hp. cbn [fst snd] in *.
      inversion Hp as [y Hy E|y Hy Hne Hab E|y fr xr Hy Hor Hbf Hbx E]; subst; cbn [fst snd]; rewrite !not_nan_app, !not_nan_one.
      - rewrite !(all_nan_repeat L), !app_nil_r. exact HI.
      - rewrite !(all_nan_repeat L), !app_nil_r. exact HI.
      - destruct (Hlen z y Hz Hy) as (E1 & E2 & E3 & E4). rewrite (bc_row_same d _ E1) in Hbf. rewrite (bc_row_same _ _ E3) in Hbx. injection Hbf as <-. injection Hbx as <-.
        apply some_not_all in E2. apply some_not_all in E4. rewrite E2, E4. apply Forall2_app; [exact HI|]. constructor; [|constructor]. eauto.
    Qed.
    (** One decision variable: the rows of variables have two entries. *)
    Lemma loop_single zs O' V' : length bounds = 1 -> (forall z x, In z zs -> answer z x true -> length x = 1) ->
      loop zs ([], []) = Ok (O', V') -> forall r, In r V' -> exists x, r = [x; x].
    Proof.
      intros Hb Hlen H.
      cut ((fun a : mat * mat => forall r, In r (snd a) -> exists x, r = [x; x]) (O', V')); [auto|]. revert H.
      assert (W : sv_width bounds = 2) by (unfold sv_width; rewrite Hb; reflexivity).
      apply loop_inv; [|intros r []]. intros z [O V] a' Hz HI Hp r Hr. apply pass_ok in Hp. cbn [snd] in HI.
      inversion Hp as [y Hy E|y Hy Hne Hab E|y fr xr Hy Hor Hbf Hbx E]; subst; cbn [snd] in Hr; apply in_app_or in Hr; destruct Hr as [Hr|[<-|[]]]; auto.
      - rewrite W. cbn. eauto.
      - rewrite W. cbn. eauto.
      - rewrite W in Hbx. specialize (Hlen z y Hz Hy). destruct y as [|v [|? ?]]; try discriminate. cbn in Hbx. injection Hbx as <-. eauto.
    Qed.
  End Loop.
End Gen.
