(** * Pareto Navigator: constants added to the objectives (C116), proofs. *)
From Coq Require Import ZArith Reals Lra List Bool Lia.
From Verif Require Import Num NumXR Py Np Spec NpFacts XRFacts SNavShift PNavShift PNautShift MRpm MParetoNav SParetoNav SPnShift.
Import ListNotations.
Open Scope R_scope.

Lemma up_add_l c (x y : XR) : nadd (up c x) y = up c (nadd x y).
Proof. destruct x as [| | |x], y as [| | |y]; try reflexivity. cbn. f_equal. lra. Qed.
Lemma up_fin c (x : XR) : nadd x (Fin c : XR) = up c x.
Proof. destruct x; reflexivity. Qed.
Lemma neg_sub (l d : XR) : nmul (nofZ (-1)) (nsub l d) = nadd (nmul (nofZ (-1)) l) d.
Proof.
  destruct l as [| | |l], d as [| | |d]; cbn; unfold xmul, xsign; try reflexivity;
    repeat match goal with |- context [Rlt_dec ?a ?b] => destruct (Rlt_dec a b); try lra end;
    repeat match goal with |- context [Req_EM_T ?a ?b] => destruct (Req_EM_T a b); try lra end; try reflexivity; cbn; try f_equal; try lra.
Qed.

Lemma unit_fold i : forall (t : list R) n acc,
  fold_left nadd (zipw nmul (map (fun j => if Nat.eqb j i then nofZ 1 else nofZ 0) (seq n (length t))) (xv t)) (Fin acc : XR) =
  (Fin (acc + (if Nat.leb n i then nth (i - n) t 0 else 0)) : XR).
Proof.
  induction t as [|c t IH]; intros n acc; cbn [length seq map xv zipw fold_left].
  - destruct (Nat.leb n i); [|rewrite Rplus_0_r; reflexivity]. destruct (i - n)%nat; cbn; rewrite Rplus_0_r; reflexivity.
  - transitivity (fold_left nadd (zipw nmul (map (fun j => if Nat.eqb j i then nofZ 1 else nofZ 0) (seq (S n) (length t))) (xv t)) (Fin (acc + (if Nat.eqb n i then c else 0)) : XR)).
    { f_equal. destruct (Nat.eqb n i); cbn; f_equal; lra. }
    rewrite IH. f_equal. destruct (Nat.eqb_spec n i) as [->|Hn].
    + rewrite Nat.leb_refl, Nat.sub_diag. destruct (Nat.leb_spec (S i) i); [lia|]. cbn. lra.
    + destruct (Nat.leb_spec (S n) i), (Nat.leb_spec n i); try lia; [|lra]. replace (i - n)%nat with (S (i - S n)) by lia. cbn [nth]. lra.
Qed.
Lemma dot_unit t i : (i < length t)%nat -> dot_t t (unit_row (length t) i) = Fin (nth i t 0).
Proof. intros H. unfold dot_t, unit_row, vsum. change (nofZ 0 : XR) with (Fin 0 : XR) at 2. rewrite unit_fold. cbn [Nat.leb]. rewrite Nat.sub_0_r. f_equal. lra. Qed.

Section Sh.
  Context (t : list R).
  Notation k := (length t).
  Notation mv := (moved t).
  Notation mm := (moved_rows t).

  Lemma rhs_units : forall (w m : list XR) n, length w = length m -> (n + length m <= k)%nat ->
    moved_rhs t (zipw (fun i wi => ndiv (nofZ (-1)) wi :: unit_row k i) (seq n (length m)) w) m = zipw (fun i => up (nth i t 0)) (seq n (length m)) m.
  Proof.
    unfold moved_rhs. intros w m. revert w. induction m as [|x m IH]; intros [|wi w] n Hw Hn; try discriminate; [reflexivity|].
    cbn [length seq zipw tl]. rewrite dot_unit by (cbn in Hn; lia). rewrite up_fin. f_equal. apply IH; cbn in *; lia.
  Qed.
  Lemma seq_moved (m : list XR) : length m = k -> zipw (fun i => up (nth i t 0)) (seq 0 k) m = mv m.
  Proof. intros H. exact (zip_moved t m 0 t H (fun i => eq_refl)). Qed.
  Definition plane_rhs (A : list (list XR)) (b : list XR) : list XR := zipw (fun r bi => nadd bi (dot_t t r)) A b.
  Lemma zip_app {A B C} (f : A -> B -> C) a1 a2 b1 b2 : length a1 = length b1 -> zipw f (a1 ++ a2) (b1 ++ b2) = zipw f a1 b1 ++ zipw f a2 b2.
  Proof. revert b1. induction a1 as [|x a1 IH]; intros [|y b1] H; try discriminate; [reflexivity|]. cbn. rewrite IH by (cbn in H; lia). reflexivity. Qed.
  Lemma lppp_rhs (w : list XR) (A0 A : list (list XR)) (m b : list XR) : length w = k -> length m = k -> pn_lppp w A0 = Ok A -> moved_rhs t A (m ++ b) = mv m ++ plane_rhs A0 b.
  Proof.
    intros Hw Hm H. unfold pn_lppp in H. assert (Hw' : @length (num XR) w = k) by exact Hw. assert (Hw2 : @length xr w = k) by exact Hw. cbv zeta in H. try rewrite Hw in H. try rewrite Hw' in H. try rewrite Hw2 in H.
    destruct (forallb _ A0); [|discriminate]. injection H as <-. unfold moved_rhs.
    rewrite zip_app by (rewrite zipw_length, seq_length; transitivity (Nat.min k k); [f_equal; exact Hw|rewrite Nat.min_id; symmetry; exact Hm]). f_equal.
    - pose proof (rhs_units w m 0 (eq_trans Hw (eq_sym Hm))) as E. rewrite Hm in E. rewrite <- (seq_moved m Hm). apply E. lia.
    - unfold plane_rhs. clear. revert b. induction A0 as [|r A0 IH]; intros [|x b]; cbn; auto. rewrite IH. reflexivity.
  Qed.
  Lemma lppp_len (w : list XR) (A0 A : list (list XR)) : length w = k -> pn_lppp w A0 = Ok A -> length A = (k + length A0)%nat.
  Proof. intros Hw H. unfold pn_lppp in H. destruct (forallb _ A0); [|discriminate]. injection H as <-. rewrite app_length, zipw_length, seq_length, map_length. f_equal. etransitivity; [apply Nat.min_id|exact Hw]. Qed.

  (** The planes. *)
  Lemma split_moved eqs : fst (pn_split (map (moved_plane t) eqs)) = fst (pn_split eqs) /\
    snd (pn_split (map (moved_plane t) eqs)) = plane_rhs (fst (pn_split eqs)) (snd (pn_split eqs)).
  Proof.
    unfold pn_split, plane_rhs. cbn [fst snd]. rewrite !map_map. induction eqs as [|r eqs [IH1 IH2]]; [split; reflexivity|].
    cbn [map zipw]. rewrite IH1, IH2. unfold moved_plane at 1. rewrite removelast_last. split; [reflexivity|]. f_equal. unfold moved_plane. rewrite last_last. apply neg_sub.
  Qed.
  Lemma split_widths (eqs : list (list XR)) (w : list XR) : is_matrix (S k) eqs -> length w = k -> exists A, pn_lppp w (fst (pn_split eqs)) = Ok A.
  Proof.
    intros H Hw. unfold pn_lppp, pn_split. cbn [fst]. rewrite Hw. replace (forallb _ (map _ eqs)) with true; [eauto|]. symmetry. apply forallb_forall.
    intros r Hr. apply in_map_iff in Hr. destruct Hr as (r0 & <- & Hr0). unfold is_matrix in H. rewrite Forall_forall in H. apply Nat.eqb_eq. specialize (H r0 Hr0).
    destruct r0 as [|a r0] using rev_ind; [discriminate|]. rewrite removelast_last. rewrite app_length, Nat.add_1_r in H. exact (eq_add_S _ _ H).
  Qed.

  (** Extremes. *)
  Lemma max_up c (x y : XR) : nmaximum (up c x) (up c y) = up c (nmaximum x y).
  Proof. unfold nmaximum. rewrite up_leb, up_nan. destruct (_ || _); reflexivity. Qed.
  Lemma min_up c (x y : XR) : nminimum (up c x) (up c y) = up c (nminimum x y).
  Proof. unfold nminimum. rewrite up_leb, up_nan. destruct (_ || _); reflexivity. Qed.
  Lemma fold_moved (f : XR -> XR -> XR) : (forall c x y, f (up c x) (up c y) = up c (f x y)) -> forall m r, is_matrix k m -> length r = k ->
    fold_left (zipw f) (mm m) (mv r) = mv (fold_left (zipw f) m r) /\ length (fold_left (zipw f) m r) = k.
  Proof.
    intros H. induction m as [|x m IH]; intros r Hm Hr; [split; [reflexivity|exact Hr]|]. inversion Hm; subst. cbn [moved_rows map fold_left].
    rewrite (moved_zipw_up f t H) by assumption. apply IH; [assumption|]. rewrite zipw_length. lia.
  Qed.
  Lemma max0_moved m : is_matrix k m -> rr (fun a b => b = mv a /\ length a = k) (np_max0 m) (np_max0 (mm m)).
  Proof. intros [|r m' Hr Hm]; [reflexivity|]. cbn. apply (fold_moved nmaximum max_up); assumption. Qed.
  Lemma min0_moved m : is_matrix k m -> rr (fun a b => b = mv a /\ length a = k) (np_min0 m) (np_min0 (mm m)).
  Proof. intros [|r m' Hr Hm]; [reflexivity|]. cbn. apply (fold_moved nminimum min_up); assumption. Qed.
  Lemma rr_bind {A B C D} (P : A -> B -> Prop) (Q : C -> D -> Prop) r1 r2 (f : A -> res C) (g : B -> res D) :
    rr P r1 r2 -> (forall a b, P a b -> rr Q (f a) (g b)) -> rr Q (rbind r1 f) (rbind r2 g).
  Proof. destruct r1, r2; cbn; intros H G; try contradiction; auto. Qed.
  Notation ext_rel := (fun a b : list XR * list XR => b = (mv (fst a), mv (snd a)) /\ length (fst a) = k /\ length (snd a) = k).
  Lemma extremes_moved m : is_matrix k m -> rr ext_rel (pn_extremes m) (pn_extremes (mm m)).
  Proof.
    intros Hm. unfold pn_extremes. eapply rr_bind; [apply max0_moved; exact Hm|]. intros n ? [-> Hn]. eapply rr_bind; [apply min0_moved; exact Hm|]. intros i ? [-> Hi]. cbn. auto.
  Qed.
  Lemma inf_moved : forall (t : list R) (v : list XR), any_inf (moved t v) = any_inf v.
  Proof. induction t0 as [|c t0 IH]; intros [|x v]; auto. cbn [moved any_inf existsb]. unfold any_inf in IH. rewrite IH. f_equal. unfold nisinf. rewrite up_nan, up_sub. reflexivity. Qed.
  Lemma weights_ok (i n : list XR) : length i = k -> length n = k -> exists w, pn_weights i n = Ok w /\ length w = k /\ pn_weights (mv i) (mv n) = Ok w.
  Proof.
    intros Hi Hn. unfold pn_weights. rewrite (moved_bcast nsub t) by (auto using up_sub). unfold bcast2. rewrite Hi, Hn, Nat.eqb_refl. cbn [rbind].
    eexists. split; [reflexivity|]. split; [|reflexivity]. rewrite map_length, zipw_length, Hi, Hn. apply Nat.min_id.
  Qed.

  (** Two environments. *)
  Context (e1 e2 : pn_env XR) (ME : moved_pn_env t e1 e2).
  Lemma hull_moved pts : is_matrix k pts -> rr (fun a b => (fst b = fst a /\ snd b = plane_rhs (fst a) (snd a)) /\ length (snd a) = length (fst a) /\ forall w : list XR, length w = k -> exists A, pn_lppp w (fst a) = Ok A)
    (pn_polyhedral e1 pts) (pn_polyhedral e2 (mm pts)).
  Proof.
    destruct ME as (EH & _ & HT & _). intros Hp. unfold pn_polyhedral. rewrite EH. destruct (HT pts Hp) as [-> HW]. destruct (pe_hull e1 pts) as [eqs|x]; [|reflexivity].
    cbn [rmap rbind rr]. split; [apply split_moved|]. split; [unfold pn_split; cbn; rewrite !map_length; reflexivity|]. intros w Hw. apply (split_widths eqs w (HW eqs eq_refl) Hw).
  Qed.

  Notation omv := (option_map mv).
  Definition cur_rel (c1 c2 : option (pn_point XR)) : Prop := forall c, c1 = Some c -> exists v, c = CVec v /\ length v = k.
  Record RS (s1 s2 : pn_state XR) : Prop := MkRS {
    r_ideal : ps_ideal s2 = mv (ps_ideal s1) /\ length (ps_ideal s1) = k;
    r_nadir : ps_nadir s2 = mv (ps_nadir s1) /\ length (ps_nadir s1) = k;
    r_w : ps_w s2 = ps_w s1 /\ length (ps_w s1) = k;
    r_A : ps_A s2 = ps_A s1;
    r_b : exists A0, pn_lppp (ps_w s1) A0 = Ok (ps_A s1) /\ length (ps_b s1) = length A0 /\ ps_b s2 = plane_rhs A0 (ps_b s1);
    r_pos : ps_pos s2 = mm (ps_pos s1) /\ is_matrix k (ps_pos s1);
    r_speed : ps_speed s2 = ps_speed s1;
    r_ref : ps_ref s2 = omv (ps_ref s1) /\ (forall q, ps_ref s1 = Some q -> length q = k);
    r_cur : ps_cur s2 = option_map (moved_pt t) (ps_cur s1) /\ (forall c, ps_cur s1 = Some c -> exists v, c = CVec v /\ length v = k);
    r_po : ps_po s2 = option_map (fun xf => (fst xf, mv (snd xf))) (ps_po s1) /\ (forall xf, ps_po s1 = Some xf -> length (snd xf) = k) }.

  Lemma disc_moved (objs : list (list XR)) (v : list XR) : is_matrix k objs -> length v = k -> pn_disc (mm objs) (CVec (mv v)) = pn_disc objs (CVec v).
  Proof.
    intros Ho Hv. unfold pn_disc. f_equal. f_equal. unfold moved_rows. rewrite map_map. apply map_ext_in. intros f Hf. unfold is_matrix in Ho. rewrite Forall_forall in Ho. specialize (Ho f Hf).
    unfold simple_asf. rewrite (moved_bcast simple_term t); auto. intros c x y. unfold simple_term. rewrite up_nan, up_sub. reflexivity.
  Qed.

  Lemma ctor_moved (i0 n0 : list XR) given : length i0 = k -> length n0 = k -> (forall m, given = Some m -> is_matrix k m) ->
    rr RS (pn_ctor e1 i0 n0 given) (pn_ctor e2 (mv i0) (mv n0) (option_map mm given)).
  Proof.
    intros Hi Hn Hg. unfold pn_ctor.
    eapply (rr_bind (fun a b => b = mm a /\ is_matrix k a)).
    { destruct ME as (_ & _ & _ & _ & MP). destruct (pe_prob e1) as [ev1 min1|o1 d1], (pe_prob e2) as [ev2 min2|o2 d2]; try contradiction.
      - destruct given as [m|]; cbn; auto.
      - destruct MP as (Ho & -> & ->). destruct given; cbn; auto. }
    intros pos ? [-> Hp]. rewrite !inf_moved.
    eapply (rr_bind (fun a b : list XR * list XR => b = (mv (fst a), mv (snd a)) /\ length (fst a) = k /\ length (snd a) = k)).
    { destruct (any_inf n0 || any_inf i0); [apply extremes_moved; exact Hp|cbn; auto]. }
    intros [i n] ? (-> & Hi' & Hn'). cbn [fst snd] in *.
    eapply rr_bind; [apply hull_moved; exact Hp|]. intros [A0 b] [A0' b'] ((EA & EB) & HL & HW). cbn [fst snd] in *. subst A0' b'.
    destruct (weights_ok n i Hn' Hi') as (w & E1 & Hw & E2). rewrite E1, E2. cbn [rbind]. destruct (HW w Hw) as [A EA]. rewrite EA. cbn [rbind rr].
    constructor; cbn; auto; [exists A0; auto|split; [reflexivity|discriminate]..].
  Qed.

  Definition sm {A B} (P : A -> B -> Prop) (m1 : SE (pn_state XR) A) (m2 : SE (pn_state XR) B) (s1 s2 : pn_state XR) : Prop :=
    RS (fst (m1 s1)) (fst (m2 s2)) /\ rr P (snd (m1 s1)) (snd (m2 s2)).
  Lemma sm_bind {A B C D} (P : A -> B -> Prop) (Q : C -> D -> Prop) m1 m2 (f : A -> SE (pn_state XR) C) (g : B -> SE (pn_state XR) D) s1 s2 :
    sm P m1 m2 s1 s2 -> (forall a b s1' s2', RS s1' s2' -> P a b -> sm Q (f a) (g b) s1' s2') -> sm Q (sbind m1 f) (sbind m2 g) s1 s2.
  Proof.
    intros (W & R) H. unfold sm, sbind. destruct (m1 s1) as [s1' r1], (m2 s2) as [s2' r2]. cbn [fst snd] in *.
    destruct r1 as [a|x1], r2 as [b|x2]; cbn [rr] in R; try contradiction; cbn [fst snd]; [exact (H a b s1' s2' W R)|]. subst. split; [exact W|reflexivity].
  Qed.
  Lemma sm_lift {A B} (P : A -> B -> Prop) r1 r2 s1 s2 : RS s1 s2 -> rr P r1 r2 -> sm P (lift r1) (lift r2) s1 s2.
  Proof. intros W H. split; [exact W|exact H]. Qed.
  Lemma sm_get s1 s2 : RS s1 s2 -> sm RS sget sget s1 s2.
  Proof. intros W. split; exact W. Qed.
  Lemma sm_mod f g s1 s2 : RS (f s1) (g s2) -> sm (fun _ _ => True) (smod f) (smod g) s1 s2.
  Proof. intros W. split; [exact W|exact Logic.I]. Qed.
  Lemma sm_ret {A B} (P : A -> B -> Prop) a b s1 s2 : RS s1 s2 -> P a b -> sm P (sret a) (sret b) s1 s2.
  Proof. intros W H. split; [exact W|exact H]. Qed.
  Lemma sm_raise {A B} (P : A -> B -> Prop) e s1 s2 : RS s1 s2 -> sm P (sraise e : SE _ A) (sraise e : SE _ B) s1 s2.
  Proof. intros W. split; [exact W|reflexivity]. Qed.
  Lemma rr_weaken {A B} (P Q : A -> B -> Prop) r1 r2 : (forall a b, P a b -> Q a b) -> rr P r1 r2 -> rr Q r1 r2.
  Proof. destruct r1, r2; cbn; auto. Qed.

  Definition wfq (q : pn_request XR) : Prop :=
    match q with PInit i n _ | PReq _ i n => length i = k /\ length n = k | PSol _ _ f | PStop _ _ f => length f = k end.
  Notation qrel := (fun q1 q2 : pn_request XR => q2 = moved_pn t q1 /\ wfq q1).
  Notation crel := (fun c c' : pn_point XR => exists v, c = CVec v /\ c' = CVec (mv v) /\ length v = k).
  Lemma cur_rr e s1 s2 : RS s1 s2 -> rr crel (attr e (ps_cur s1)) (attr e (ps_cur s2)).
  Proof. intros W. destruct (r_cur _ _ W) as [-> H]. destruct (ps_cur s1) as [c|]; [|reflexivity]. destruct (H c eq_refl) as (v & -> & Hv). cbn. eauto. Qed.
  Lemma set_speed a s1 s2 : RS s1 s2 -> RS (p_speed s1 a) (p_speed s2 a).
  Proof. intros [] . constructor; cbn; auto. Qed.
  Lemma set_cur v s1 s2 : RS s1 s2 -> length v = k -> RS (p_cur s1 (Some (CVec v))) (p_cur s2 (Some (CVec (mv v)))).
  Proof. intros [] H. constructor; cbn; auto. split; [reflexivity|]. intros c [= <-]. eauto. Qed.
  Lemma set_ref v s1 s2 : RS s1 s2 -> length v = k -> RS (p_ref s1 (Some v)) (p_ref s2 (Some (mv v))).
  Proof. intros [] H. constructor; cbn; auto. split; [reflexivity|]. intros c [= <-]. exact H. Qed.
  Lemma set_po x f s1 s2 : RS s1 s2 -> length f = k -> RS (p_po s1 (Some (x, f))) (p_po s2 (Some (x, mv f))).
  Proof. intros [] H. constructor; cbn; auto. split; [reflexivity|]. intros c [= <-]. exact H. Qed.
  Lemma set_pos m s1 s2 : RS s1 s2 -> is_matrix k m -> RS (p_pos s1 m) (p_pos s2 (mm m)).
  Proof. intros [] H. constructor; cbn; auto. Qed.

  Lemma issue_moved s1 s2 : RS s1 s2 -> sm qrel (pn_issue (N:=XR)) pn_issue s1 s2.
  Proof.
    intros W. unfold pn_issue. eapply sm_bind; [apply sm_get; exact W|]. intros a b sa sb Wa Wab.
    eapply sm_bind; [apply sm_lift; [exact Wa|apply cur_rr; exact Wab]|]. intros c c' sc sd Wc (v & -> & -> & Hv). apply sm_ret; [exact Wc|].
    destruct (r_ideal _ _ Wab) as [-> Hi]. destruct (r_nadir _ _ Wab) as [-> Hn]. split; [reflexivity|]. cbn. auto.
  Qed.
  Lemma row_moved m i : is_matrix k m -> rr (fun v v' => v' = mv v /\ length v = k) (py_nth m i) (py_nth (mm m) i).
  Proof.
    intros Hm. unfold py_nth. unfold moved_rows at 1. rewrite map_length. destruct (py_pos (length m) i) as [j|]; [|reflexivity].
    apply rr_map; [apply at_map|]. intros v E. apply at_ok, nth_error_In in E. unfold is_matrix in Hm. rewrite Forall_forall in Hm. exact (Hm v E).
  Qed.
  Lemma initial_moved d s1 s2 : RS s1 s2 -> pd_ref d = None -> sm qrel (pn_handle_initial e1 d) (pn_handle_initial e2 (moved_pn_answer t d)) s1 s2.
  Proof.
    intros W HR. unfold pn_handle_initial. cbn [moved_pn_answer pd_ref pd_pref pd_speed]. rewrite HR. cbn [option_map].
    eapply sm_bind; [apply sm_get; exact W|]. intros a b sa sb Wa Wab.
    eapply (sm_bind crel).
    { eapply (sm_bind eq); [apply sm_lift; [exact Wa|apply rr_refl]|]. intros i ? sc sd Wc <-. destruct i as [z|]; [|apply sm_raise; exact Wc].
      destruct (r_pos _ _ Wab) as [-> Hp]. eapply sm_bind; [apply sm_lift; [exact Wc|apply row_moved; exact Hp]|]. intros r ? se sf We [-> Hr]. apply sm_ret; [exact We|eauto]. }
    intros c c' sc sd Wc (v & -> & -> & Hv). eapply sm_bind; [apply sm_mod; apply set_cur; assumption|]. intros _ _ se sf We _.
    eapply (sm_bind eq); [apply sm_lift; [exact We|apply rr_refl]|]. intros x ? sg sh Wg <-.
    eapply (sm_bind eq); [apply sm_lift; [exact Wg|apply rr_refl]|]. intros a1 ? si sj Wi <-.
    eapply sm_bind; [apply sm_mod; apply set_speed; exact Wi|]. intros _ _ sk sl Wk _. apply issue_moved; exact Wk.
  Qed.
  Lemma show_moved s1 s2 : RS s1 s2 -> sm qrel (pn_show e1) (pn_show e2) s1 s2.
  Proof.
    intros W. unfold pn_show. eapply sm_bind; [apply sm_get; exact W|]. intros a b sa sb Wa Wab.
    eapply sm_bind; [apply sm_lift; [exact Wa|apply cur_rr; exact Wab]|]. intros c c' sc sd Wc (v & -> & -> & Hv).
    eapply (sm_bind (fun x y : list XR * list XR => y = (fst x, mv (snd x)) /\ length (snd x) = k)).
    { apply sm_lift; [exact Wc|]. destruct ME as (_ & _ & _ & _ & MP). destruct (pe_prob e1) as [ev1 min1|o1 d1], (pe_prob e2) as [ev2 min2|o2 d2]; try contradiction.
      - destruct MP as [HE HM]. unfold pn_minimize. rewrite HM by exact Hv. destruct (min1 false v) as [[x|]|]; cbn; auto. destruct (HE x) as [Hx ->]. auto.
      - destruct MP as (Ho & -> & ->). rewrite disc_moved by assumption. destruct (pn_disc o1 (CVec v)) as [i|]; [|reflexivity]. cbn [rbind].
        eapply rr_bind; [apply (rr_map mv (fun f => length f = k)); [apply at_map|]|].
        + intros f E. apply at_ok, nth_error_In in E. unfold is_matrix in Ho. rewrite Forall_forall in Ho. exact (Ho f E).
        + intros f ? [-> Hf]. destruct (at_ d1 i) as [x|]; [|reflexivity]. cbn. auto. }
    intros [x f] ? se sf We [-> Hf]. cbn [fst snd] in *. eapply sm_bind; [apply sm_mod; apply set_po; assumption|]. intros _ _ sg sh Wg _.
    apply sm_ret; [exact Wg|]. split; [reflexivity|exact Hf].
  Qed.

  (** The next point. *)
  Lemma class_moved (i n v : list XR) l : length i = k -> length n = k -> length v = k -> length l = k ->
    rr (fun a b => b = mv a /\ length a = k) (pn_class_ref i n (CVec v) l) (pn_class_ref (mv i) (mv n) (CVec (mv v)) l).
  Proof.
    intros Hi Hn Hv Hl. unfold pn_class_ref.
    assert (G : forall j c, pn_class_value (mv i) (mv n) (CVec (mv v)) j c = rmap (up (nth j t 0)) (pn_class_value i n (CVec v) j c)).
    { intros j c. assert (G : forall u : list XR, length u = k -> at_ (mv u) j = rmap (up (nth j t 0)) (at_ u j)).
      { intros u Hu. unfold at_. rewrite moved_nth_error by exact Hu. destruct (nth_error u j); reflexivity. }
      destruct c; cbn [pn_class_value]; auto. }
    assert (E : zipw (pn_class_value (mv i) (mv n) (CVec (mv v))) (seq 0 (length l)) l =
                map (fun j => rmap (up (nth j t 0)) (pn_class_value i n (CVec v) j (nth j l CBad))) (seq 0 (length l))).
    { clear Hl. transitivity (zipw (fun j c => rmap (up (nth j t 0)) (pn_class_value i n (CVec v) j c)) (seq 0 (length l)) l).
      - generalize (seq 0 (length l)). induction l as [|c l IH]; intros [|j js]; cbn; auto. rewrite G, IH. reflexivity.
      - assert (Z : forall (l : list pn_class) m L, (forall j, nth (m + j) L CBad = nth j l CBad) ->
          zipw (fun j c => rmap (up (nth j t 0)) (pn_class_value i n (CVec v) j c)) (seq m (length l)) l =
          map (fun j => rmap (up (nth j t 0)) (pn_class_value i n (CVec v) j (nth j L CBad))) (seq m (length l))).
        { clear l. induction l as [|c l IH]; intros m L HL; [reflexivity|]. cbn [length seq zipw map]. pose proof (HL 0%nat) as H0. rewrite Nat.add_0_r in H0. rewrite H0. cbn [nth].
          f_equal. apply IH. intros j. specialize (HL (S j)). rewrite Nat.add_succ_r in HL. exact HL. }
        apply Z. reflexivity. }
    assert (E1 : zipw (pn_class_value i n (CVec v)) (seq 0 (length l)) l = map (fun j => pn_class_value i n (CVec v) j (nth j l CBad)) (seq 0 (length l))).
    { assert (Z : forall (l : list pn_class) m L, (forall j, nth (m + j) L CBad = nth j l CBad) ->
          zipw (pn_class_value i n (CVec v)) (seq m (length l)) l = map (fun j => pn_class_value i n (CVec v) j (nth j L CBad)) (seq m (length l))).
      { clear. induction l as [|c l IH]; intros m L HL; [reflexivity|]. cbn [length seq zipw map]. pose proof (HL 0%nat) as H0. rewrite Nat.add_0_r in H0. rewrite H0. cbn [nth].
        f_equal. apply IH. intros j. specialize (HL (S j)). rewrite Nat.add_succ_r in HL. exact HL. }
      apply Z. reflexivity. }
    rewrite E, E1. rewrite (rseq_zip (fun j => up (nth j t 0)) (fun j => pn_class_value i n (CVec v) j (nth j l CBad)) (seq 0 (length l))).
    destruct (rseq (map (fun j => pn_class_value i n (CVec v) j (nth j l CBad)) (seq 0 (length l)))) as [r|x] eqn:ER; [|reflexivity].
    assert (Hr : length r = k). { apply rseq_len in ER. rewrite map_length, seq_length, Hl in ER. exact ER. }
    cbn [rmap rr]. rewrite Hl. split; [apply seq_moved; exact Hr|exact Hr].
  Qed.
  Lemma solve_moved (v i n dir : list XR) a A b1 A0 w : length v = k -> length i = k -> length n = k -> length dir = k -> length w = k ->
    pn_lppp w A0 = Ok A -> length b1 = length A0 ->
    rr (fun x y => y = mv x /\ length x = k) (pn_solve e1 (CVec v) i n dir a A b1) (pn_solve e2 (CVec (mv v)) (mv i) (mv n) dir a A (plane_rhs A0 b1)).
  Proof.
    intros Hv Hi Hn Hd Hw HA Hb. unfold pn_solve. assert (Hs : length (vscale a dir) = k) by (unfold vscale; rewrite map_length; exact Hd).
    assert (E1 : bcast2 nadd v (vscale a dir) = Ok (zipw nadd v (vscale a dir))) by (unfold bcast2; rewrite Hv, Hs, Nat.eqb_refl; reflexivity).
    assert (E2 : bcast2 nadd (mv v) (vscale a dir) = Ok (mv (zipw nadd v (vscale a dir)))).
    { unfold bcast2. rewrite moved_length, Hv, Hs, Nat.eqb_refl. f_equal.
      revert Hv Hs. generalize (vscale a dir). clear. revert v. induction t as [|c t' IH]; intros [|x v] [|y u] H1 H2; try discriminate; [reflexivity|].
      cbn [moved zipw]. rewrite up_add_l. f_equal. apply IH; cbn in *; lia. }
    rewrite E1, E2. cbn [rbind]. set (m := zipw nadd v (vscale a dir)). assert (Hm : length m = k) by (unfold m; rewrite zipw_length, Hv, Hs; apply Nat.min_id).
    rewrite !moved_length, Hm, Hv, Hi, Hn, !Nat.eqb_refl. cbn [negb].
    destruct ME as (_ & EL & _ & HT & _). rewrite EL.
    set (bn := (None, None) :: map (fun xy => (Some (fst xy), Some (snd xy))) (combine i n)).
    assert (EB : (None, None) :: map (fun xy => (Some (fst xy), Some (snd xy))) (combine (mv i) (mv n)) = moved_bnds t bn).
    { unfold bn, moved_bnds. f_equal. clear -Hi Hn. revert i n Hi Hn. induction t as [|c t' IH]; intros [|x i] [|y n] H1 H2; try discriminate; [reflexivity|].
      cbn [moved combine map zipw fst snd option_map]. f_equal. apply IH; cbn in *; lia. }
    assert (LB : length bn = S k) by (unfold bn; cbn [length]; rewrite map_length, combine_length, Hi, Hn, Nat.min_id; reflexivity).
    assert (LA : length A = length (m ++ b1)) by (rewrite (lppp_len w A0 A Hw HA), app_length, Hm, Hb; reflexivity).
    rewrite EB, <- (lppp_rhs w A0 A m b1 Hw Hm HA). destruct (HT A (m ++ b1) bn LA LB) as [-> HL].
    destruct (pe_lp e1 _ A (m ++ b1) bn) as [[x|]|x]; [|reflexivity|reflexivity]. cbn [rmap option_map rbind rr]. specialize (HL x eq_refl).
    destruct x as [|x0 z]; [discriminate|]. cbn [moved_tail tl]. split; [reflexivity|]. exact (eq_add_S _ _ HL).
  Qed.
  Lemma bsub_same (q v : list XR) : length q = k -> length v = k -> bcast2 nsub q v = Ok (zipw nsub q v).
  Proof. intros Hq Hv. unfold bcast2. rewrite Hq, Hv, Nat.eqb_refl. reflexivity. Qed.
  Lemma handle_moved d s1 s2 : RS s1 s2 -> (is_true (pd_show d) = false -> (forall a, pd_ref d = Some a -> match a with RArr q => length q = k | _ => False end) /\ (forall l, pd_class d = Some l -> length l = k)) ->
    sm qrel (pn_handle e1 d) (pn_handle e2 (moved_pn_answer t d)) s1 s2.
  Proof.
    intros W HD. unfold pn_handle. cbn [moved_pn_answer pd_show pd_speed pd_ref pd_class pd_back].
    destruct (is_true (pd_show d)); [apply show_moved; exact W|]. destruct (HD eq_refl) as [HR HC]. clear HD.
    eapply (sm_bind (fun _ _ => True)).
    { destruct (pd_speed d) as [v|]; [|apply sm_ret; auto]. eapply (sm_bind eq); [apply sm_lift; [exact W|apply rr_refl]|]. intros a ? sa sb Wa <-. apply sm_mod. apply set_speed. exact Wa. }
    intros _ _ sa sb Wa _. eapply sm_bind; [apply sm_get; exact Wa|]. intros a b sc sd Wc Wab.
    eapply (sm_bind eq); [apply sm_lift; [exact Wc|rewrite (r_speed _ _ Wab); apply rr_refl]|]. intros a0 ? se sf We <-. cbv zeta.
    set (aa := if is_true (pd_back d) then nmul a0 (nofZ (-1)) else nabs a0).
    eapply sm_bind; [apply sm_mod; apply set_speed; exact We|]. intros _ _ sg sh Wg _.
    eapply sm_bind; [apply sm_lift; [exact Wg|apply cur_rr; exact Wab]|]. intros c c' si sj Wi (v & -> & -> & Hv).
    eapply (sm_bind (fun _ _ => True)).
    { destruct (pd_ref d) as [[q| |]|] eqn:ER; cbn [option_map moved_arr].
      - apply sm_mod. apply set_ref; [exact Wi|exact (HR _ eq_refl)].
      - destruct (HR _ eq_refl).
      - destruct (HR _ eq_refl).
      - destruct (pd_class d) as [l|]; [|apply sm_ret; auto]. destruct (r_ideal _ _ Wab) as [-> Hi]. destruct (r_nadir _ _ Wab) as [-> Hn].
        eapply sm_bind; [apply sm_lift; [exact Wi|apply class_moved; auto]|]. intros q ? sk sl Wk [-> Hq]. apply sm_mod. apply set_ref; assumption. }
    intros _ _ sk sl Wk _. eapply sm_bind; [apply sm_get; exact Wk|]. intros a1 b1 sm' sn Wm Wa1.
    eapply (sm_bind (fun q q' => q' = mv q /\ length q = k)).
    { apply sm_lift; [exact Wm|]. destruct (r_ref _ _ Wa1) as [-> HQ]. destruct (ps_ref a1) as [q|]; cbn; auto. }
    intros q ? so sp Wo [-> Hq]. cbn [pn_direction].
    eapply (sm_bind (fun x y => y = x /\ length x = k)).
    { apply sm_lift; [exact Wo|]. rewrite (moved_bcast nsub t) by (auto using up_sub). rewrite (bsub_same q v Hq Hv). cbn [rr]. split; [reflexivity|]. etransitivity; [apply zipw_length|]. transitivity (Nat.min k k); [f_equal; assumption|apply Nat.min_id]. }
    intros dir ? su sv Wu [-> Hd].
    destruct (r_ideal _ _ Wa1) as [-> Hi]. destruct (r_nadir _ _ Wa1) as [-> Hn]. destruct (r_w _ _ Wa1) as [_ Hw]. rewrite (r_A _ _ Wa1). destruct (r_b _ _ Wa1) as (A0 & HA & Hb & ->).
    eapply sm_bind; [apply sm_lift; [exact Wu|exact (solve_moved v _ _ dir aa _ _ A0 _ Hv Hi Hn Hd Hw HA Hb)]|]. intros z ? sw sx Ww [-> Hz].
    eapply sm_bind; [apply sm_mod; apply set_cur; assumption|]. intros _ _ sy sz Wy _. apply issue_moved. exact Wy.
  Qed.

  (** A solution is added to the approximation. *)
  Lemma mm_app a b : mm (a ++ b) = mm a ++ mm b.
  Proof. apply map_app. Qed.
  Lemma moved_nil : mv [] = [].
  Proof. destruct t; reflexivity. Qed.
  Definition pn_update (e : pn_env XR) (s : pn_state XR) (pos : list (list XR)) : SE (pn_state XR) (pn_request XR) :=
    Ab <-- lift (pn_polyhedral e pos) ;;
    smod (fun s => p_b s (snd Ab)) ;;;
    en <-- lift (pn_extremes pos) ;;
    nadir <-- lift (np_max0 [fst en; ps_nadir s]) ;;
    smod (fun s => p_nadir s nadir) ;;;
    ideal <-- lift (np_min0 [snd en; ps_ideal s]) ;;
    smod (fun s => p_ideal s ideal) ;;;
    w <-- lift (pn_weights ideal nadir) ;;
    smod (fun s => p_w s w) ;;;
    A <-- lift (pn_lppp w (fst Ab)) ;;
    smod (fun s => p_A s A) ;;;
    pn_issue.
  Lemma update_moved a b pos s1 s2 : RS s1 s2 -> RS a b -> is_matrix k pos -> pos <> [] -> sm qrel (pn_update e1 a pos) (pn_update e2 b (mm pos)) s1 s2.
  Proof.
    intros W Wab Hp Hne. unfold pn_update. pose proof (hull_moved pos Hp) as HH.
    destruct (pn_polyhedral e1 pos) as [[A0 b0]|x1] eqn:EP1, (pn_polyhedral e2 (mm pos)) as [[A0' b0']|x2] eqn:EP2; cbn [rr] in HH; try contradiction.
    2:{ subst x2. split; [exact W|reflexivity]. }
    destruct HH as ((EA & EB) & HL & HW). cbn [fst snd] in *. subst A0' b0'.
    pose proof (extremes_moved pos Hp) as HE.
    destruct (pn_extremes pos) as [[n0 i0]|x1] eqn:EX1.
    2:{ exfalso. destruct pos as [|r pos]; [contradiction|]. unfold pn_extremes in EX1. cbn in EX1. discriminate. }
    destruct (pn_extremes (mm pos)) as [en2|x2] eqn:EX2; cbn [rr] in HE; [|contradiction]. destruct HE as (-> & Hn0 & Hi0). cbn [fst snd] in *.
    destruct (r_ideal _ _ Wab) as [EI Hi]. destruct (r_nadir _ _ Wab) as [EN Hn].
    pose proof (max0_moved [n0; ps_nadir a] ltac:(repeat constructor; assumption)) as HM. pose proof (min0_moved [i0; ps_ideal a] ltac:(repeat constructor; assumption)) as HN.
    cbn [moved_rows map] in HM, HN. rewrite <- EN in HM. rewrite <- EI in HN.
    destruct (np_max0 [n0; ps_nadir a]) as [n1|] eqn:M1; [|discriminate]. destruct (np_max0 [mv n0; ps_nadir b]) as [n1'|] eqn:M2; [|contradiction]. destruct HM as [-> Hn1].
    destruct (np_min0 [i0; ps_ideal a]) as [i1|] eqn:M3; [|discriminate]. destruct (np_min0 [mv i0; ps_ideal b]) as [i1'|] eqn:M4; [|contradiction]. destruct HN as [-> Hi1].
    destruct (weights_ok i1 n1 Hi1 Hn1) as (w & E1 & Hw & E2). destruct (HW w Hw) as [A EA].
    assert (X1 : forall s, (lift (Ok (A0, b0)) : SE (pn_state XR) _) s = (s, Ok (A0, b0))) by reflexivity. clear X1.
    unfold sbind, lift, smod. cbn [fst snd]. rewrite M1, M2, M3, M4, E1, E2, EA.
    refine (issue_moved _ _ _). destruct W. constructor; cbn; auto. exists A0. auto.
  Qed.
  Lemma solution_moved resp s1 s2 : RS s1 s2 -> sm qrel (pn_handle_solution e1 resp) (pn_handle_solution e2 (option_map (moved_pn_answer t) resp)) s1 s2.
  Proof.
    intros W. unfold pn_handle_solution. eapply sm_bind; [apply sm_get; exact W|]. intros a b sa sb Wa Wab.
    assert (ES : match option_map (moved_pn_answer t) resp with Some d => is_true (pd_sat d) | None => false end = match resp with Some d => is_true (pd_sat d) | None => false end) by (destruct resp; reflexivity).
    rewrite ES.
    assert (PO : rr (fun x y : list XR * list XR => y = (fst x, mv (snd x)) /\ length (snd x) = k) (attr AttrErr (ps_po a)) (attr AttrErr (ps_po b))).
    { destruct (r_po _ _ Wab) as [-> H]. destruct (ps_po a) as [xf|]; cbn; auto. }
    destruct (match resp with Some d => is_true (pd_sat d) | None => false end).
    - eapply sm_bind; [apply sm_lift; [exact Wa|exact PO]|]. intros [x f] ? sc sd Wc [-> Hf]. cbn [fst snd] in *.
      eapply sm_bind; [apply sm_lift; [exact Wc|apply cur_rr; exact Wab]|]. intros c c' se sf We (v & -> & -> & Hv). apply sm_ret; [exact We|]. split; [reflexivity|exact Hf].
    - eapply sm_bind; [apply sm_lift; [exact Wa|exact PO]|]. intros [x f] ? sc sd Wc [-> Hf]. cbn [fst snd] in *. destruct (r_pos _ _ Wab) as [-> Hp].
      eapply (sm_bind (fun m m' => m' = mm m /\ is_matrix k m /\ m <> [])).
      { apply sm_lift; [exact Wc|]. assert (EH : hd [] (mm (ps_pos a)) = mv (hd [] (ps_pos a))) by (destruct (ps_pos a); [symmetry; apply moved_nil|reflexivity]).
        rewrite EH, !moved_length. destruct (Nat.eqb _ _); [|reflexivity]. cbn [rr]. split; [rewrite mm_app; reflexivity|]. split; [|destruct (ps_pos a); discriminate].
        apply Forall_app. split; [exact Hp|]. repeat constructor. exact Hf. }
      intros m ? se sf We (-> & Hm & Hne). eapply sm_bind; [apply sm_mod; apply set_pos; assumption|]. intros _ _ sg sh Wg _.
      exact (update_moved a b m sg sh Wg Wab Hm Hne).
  Qed.

  Lemma iterate_moved q resp s1 s2 : RS s1 s2 -> wfq q -> (forall d, resp = Some d -> pn_validate q d = Ok tt /\ pn_tame k q d) ->
    sm qrel (pn_iterate e1 q resp) (pn_iterate e2 (moved_pn t q) (option_map (moved_pn_answer t) resp)) s1 s2.
  Proof.
    intros W WQ HV. destruct q as [i n pos|c i n|c x f|c x f]; cbn [moved_pn pn_iterate wfq] in *.
    - destruct resp as [d|]; cbn [option_map attr]; [|apply sm_raise; exact W]. eapply (sm_bind (fun x y => y = moved_pn_answer t x /\ x = d)); [apply sm_lift; [exact W|cbn; auto]|].
      intros d0 ? sa sb Wa [-> ->]. apply initial_moved; [exact Wa|]. exact (proj2 (HV d eq_refl)).
    - destruct resp as [d|]; cbn [option_map].
      + apply handle_moved; [exact W|]. destruct (HV d eq_refl) as [HV1 HV2]. cbn [pn_tame] in HV2. intros HS. split; [|exact HV2]. intros a HA. cbn [pn_validate] in HV1. rewrite HS, HA in HV1.
        assert (HR : pn_validate_ref a i n = Ok tt).
        { destruct (match pd_speed d with None => Ok tt | Some v => pn_check_speed v end); [|discriminate]. cbn [rbind] in HV1. destruct (pd_class d); [discriminate|exact HV1]. }
        unfold pn_validate_ref in HR. destruct a as [q| |]; cbn [rp_validate_ref] in HR; try discriminate HR. destruct WQ as [Hi _].
        match type of HR with context [Nat.eqb ?x ?y] => destruct (Nat.eqb_spec x y) as [E|E] end; [exact (eq_trans (eq_sym E) Hi)|]. cbn [negb] in HR. discriminate HR.
      + refine (handle_moved pn_empty s1 s2 W (fun _ => conj _ _)).
        * intros a E. cbn in E. discriminate E.
        * intros l E. cbn in E. discriminate E.
    - apply solution_moved. exact W.
    - apply sm_ret; [exact W|]. split; [reflexivity|exact WQ].
  Qed.
  Lemma validate_moved q d : wfq q -> pn_validate (moved_pn t q) (moved_pn_answer t d) = pn_validate q d.
  Proof.
    intros WQ. assert (VR : forall a (i n : list XR), length i = k -> length n = k -> pn_validate_ref (moved_arr t a) (mv i) (mv n) = pn_validate_ref a i n).
    { intros a i n Hi Hn. unfold pn_validate_ref. replace (rp_validate_ref (moved_arr t a) (mv i) (mv n)) with (rp_validate_ref a i n); [reflexivity|].
      destruct a as [q0| |]; try reflexivity. cbn [moved_arr rp_validate_ref]. rewrite !moved_length. destruct (Nat.eqb_spec (length i) (length q0)) as [E|]; [|reflexivity]. cbn [negb].
      rewrite (moved_zipw nltb t) by (try apply up_ltb; congruence). reflexivity. }
    destruct q as [i n pos|c i n|c x f|c x f]; cbn [moved_pn pn_validate moved_pn_answer pd_ref pd_pref pd_speed pd_show pd_class wfq] in *; try reflexivity; destruct WQ as [Hi Hn].
    - destruct (pd_ref d) as [a|], (pd_pref d); cbn [option_map]; rewrite ?VR by assumption; reflexivity.
    - destruct (is_true (pd_show d)); [reflexivity|]. destruct (pd_ref d) as [a|], (pd_class d); cbn [option_map]; rewrite ?VR by assumption; reflexivity.
  Qed.

  Lemma shifted_inv i0 n0 given s1 s2 qs : length i0 = k -> length n0 = k -> (forall m, given = Some m -> is_matrix k m) ->
    pn_shifted t e1 e2 i0 n0 given s1 s2 qs -> RS s1 s2 /\ Forall (fun p => qrel (fst p) (snd p)) qs.
  Proof.
    intros Hi Hn Hg. induction 1 as [s1 s2 E1 E2|s1 s2 qs H [W HQ]|s1 s2 qs q1 q2 resp s1' out1 s2' out2 H [W HQ] Hin HV E1 E2].
    - split; [|constructor]. pose proof (ctor_moved i0 n0 given Hi Hn Hg) as R. rewrite E1, E2 in R. exact R.
    - split; [exact W|]. constructor; [|exact HQ]. cbn [fst snd]. unfold pn_start. destruct (r_ideal _ _ W) as [-> ?]. destruct (r_nadir _ _ W) as [-> ?]. destruct (r_pos _ _ W) as [-> ?]. split; [reflexivity|]. cbn. auto.
    - pose proof HQ as HQ'. rewrite Forall_forall in HQ'. pose proof (HQ' _ Hin) as Hq. cbn [fst snd] in Hq. destruct Hq as [-> WQ].
      pose proof (iterate_moved q1 resp s1 s2 W WQ HV) as (W' & R). rewrite E1, E2 in *. cbn [fst snd] in *. split; [exact W'|].
      destruct out1, out2; auto.
  Qed.
End Sh.
