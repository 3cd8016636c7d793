(** * Synchronous NIMBUS: constants added to the objectives (C115), proofs. *)
From Coq Require Import ZArith Reals Lra List Bool Lia.
From Verif Require Import Num NumXR Py Np Spec NpFacts XRFacts SNavShift PNavShift PNautShift MNimbus SNimbus SNimbusShift PNimbus PNimbus3 PNimbus5.
Import ListNotations.
Open Scope R_scope.

Lemma up_nanargmin c (l : list XR) : npnanargmin (map (up c) l) = npnanargmin l.
Proof.
  assert (H : forall l b i, nanargmin_from (option_map (fun p : XR * nat => (up c (fst p), snd p)) b) i (map (up c) l) = option_map (fun p : XR * nat => (up c (fst p), snd p)) (nanargmin_from b i l)).
  { clear l. induction l as [|x l IH]; intros b i; [reflexivity|]. cbn [map nanargmin_from]. rewrite up_nan, <- IH. f_equal.
    destruct (nisnan x); [reflexivity|]. destruct b as [[b bi]|]; [|reflexivity]. cbn [option_map fst snd]. rewrite up_ltb. destruct (nltb x b); reflexivity. }
  unfold npnanargmin. specialize (H l None 0%nat). cbn [option_map] in H. rewrite H. destruct (nanargmin_from None 0 l) as [[v i]|]; reflexivity.
Qed.

Lemma nth_error_ext {A} : forall a b : list A, (forall i, nth_error a i = nth_error b i) -> a = b.
Proof.
  induction a as [|x a IH]; intros [|y b] H; auto; try (specialize (H 0%nat); discriminate).
  f_equal; [specialize (H 0%nat); cbn in H; congruence|]. apply IH. intros i. exact (H (S i)).
Qed.
Lemma half_moved (t : list R) : forall I Nd, length I = length t -> length Nd = length t ->
  map (fun x => ndiv x (nofZ 2)) (vadd (moved t (xv I)) (moved t (xv Nd))) = moved t (map (fun x => ndiv x (nofZ 2)) (vadd (xv I : list XR) (xv Nd))).
Proof.
  induction t as [|c t' IH]; intros [|x I] [|y Nd] LI LN; try discriminate; [reflexivity|].
  change (ndiv (nadd (Fin (x + c) : XR) (Fin (y + c))) (nofZ 2) :: map (fun x => ndiv x (nofZ 2)) (vadd (moved t' (xv I)) (moved t' (xv Nd))) =
          up c (ndiv (nadd (Fin x : XR) (Fin y)) (nofZ 2)) :: moved t' (map (fun x => ndiv x (nofZ 2)) (vadd (xv I : list XR) (xv Nd)))).
  rewrite IH by (cbn in LI, LN; congruence). f_equal.
  change (xdiv (Fin (x + c + (y + c))) (Fin 2) = up c (xdiv (Fin (x + y)) (Fin 2))). rewrite !xdiv_fin by lra. cbn [up]. f_equal. lra.
Qed.

Section Sh.
  Context (t : list R).
  Notation k := (length t).
  Notation mv := (moved t).
  Notation mm := (moved_rows t).
  Definition tl_at (l : list nat) : list R := map (fun i => nth i t 0) l.

  Lemma zip_moved_at : forall l v, length v = length l -> zipw (fun i => up (nth i t 0)) l v = moved (tl_at l) v.
  Proof. induction l as [|i l IH]; intros [|x v] H; cbn in *; auto; try discriminate. rewrite IH by lia. reflexivity. Qed.
  Lemma take_moved (v : list XR) l : length v = k -> take (mv v) l = rmap (moved (tl_at l)) (take v l).
  Proof.
    intros Hv. unfold take. transitivity (rseq (map (fun i => rmap (up (nth i t 0)) (at_ v i)) l)).
    - f_equal. apply map_ext. intros i. unfold at_. rewrite moved_nth_error by exact Hv. destruct (nth_error v i); reflexivity.
    - rewrite rseq_zip. destruct (rseq (map (at_ v) l)) as [w|e] eqn:E; [|reflexivity]. cbn [rmap]. f_equal. apply zip_moved_at.
      apply rseq_len in E. rewrite map_length in E. exact E.
  Qed.
  Lemma take_len {A} (v : list A) l w : take v l = Ok w -> length w = length l.
  Proof. intros H. apply rseq_len in H. rewrite map_length in H. exact H. Qed.
  Lemma tl_len l : length (tl_at l) = length l.
  Proof. apply map_length. Qed.

  (** Validation. *)
  Lemma levels_bad_moved (lv ideal nadir : list XR) inds : length lv = k -> length ideal = k -> length nadir = k ->
    levels_bad (mv lv) (mv ideal) (mv nadir) inds = levels_bad lv ideal nadir inds.
  Proof.
    intros H1 H2 H3. unfold levels_bad. rewrite !take_moved by assumption.
    destruct (take lv inds) as [a|] eqn:Ea; [|reflexivity]. destruct (take ideal inds) as [b|] eqn:Eb; [|reflexivity]. cbn [rmap rbind].
    apply take_len in Ea, Eb. unfold all_ge at 1. rewrite (moved_zipw (fun x y => nleb y x) (tl_at inds)) by (rewrite ?tl_len; auto; intros; apply up_leb).
    fold (all_ge a b).
    destruct (negb (all_ge a b)); [reflexivity|]. destruct (take nadir inds) as [c|] eqn:Ec; [|reflexivity]. cbn [rmap rbind]. apply take_len in Ec.
    unfold all_le. rewrite (moved_zipw nleb (tl_at inds)) by (rewrite ?tl_len; auto; intros; apply up_leb). reflexivity.
  Qed.
  Lemma validate_moved delta (I Nd : list R) p1 p2 q1 d : length I = k -> length Nd = k -> moved_nb_problem t delta I Nd p1 p2 ->
    nb_validate p2 (mv (xv I)) (mv (xv Nd)) (moved_nb t q1) (moved_classes t d) = nb_validate p1 (xv I) (xv Nd) q1 d.
  Proof.
    intros LI LN MP. assert (P2 : p_nobj p2 = k /\ p_nobj p1 = k) by (destruct p1, p2; cbn in MP |- *; intuition congruence). destruct P2 as [P2 P1].
    destruct q1 as [f|so ob|so ob|so ob|x f]; cbn [moved_nb nb_validate].
    - unfold nb_validate_cls. rewrite P1, P2. destruct d as [cl lv ns ix nd i c]; cbn [moved_classes bd_cls bd_levels bd_nsol].
      destruct cl as [cl|]; [|reflexivity]. destruct lv as [lv|]; [|reflexivity]. destruct ns as [ns|]; [|reflexivity]. cbn [option_map].
      rewrite moved_length. destruct (negb (forallb _ cl)); [reflexivity|]. destruct (Nat.eqb (length lv) 1); [reflexivity|].
      destruct (Nat.eqb_spec (length lv) k) as [E|]; [|reflexivity]. cbn [negb].
      rewrite !levels_bad_moved by (auto; rewrite xv_length; assumption). reflexivity.
    - unfold nb_validate_save. cbn [moved_classes bd_indices]. unfold moved_rows. rewrite map_length. reflexivity.
    - unfold nb_validate_inter. cbn [moved_classes bd_indices bd_ndes]. unfold moved_rows. rewrite map_length. reflexivity.
    - unfold nb_validate_pref. cbn [moved_classes bd_index bd_continue]. unfold moved_rows. rewrite map_length. reflexivity.
    - reflexivity.
  Qed.

  Definition ms (s : nb_state XR) : nb_state XR := MkBS (bs_sol s) (mv (bs_obj s)) (bs_asols s) (mm (bs_aobjs s)) (bs_phase s).
  Record wf (s : nb_state XR) : Prop := MkWf { wf_obj : length (bs_obj s) = k; wf_aobjs : is_matrix k (bs_aobjs s) }.
  Definition wfq (q : nb_request XR) : Prop :=
    match q with QClass f => length f = k | QSave _ o | QInter _ o | QPref _ o => is_matrix k o | QStop _ f => length f = k end.
  Notation qrel := (fun q1 q2 : nb_request XR => q2 = moved_nb t q1 /\ wfq q1).
  Notation pair_rel := (fun r1 r2 : list XR * list XR => r2 = (fst r1, mv (snd r1)) /\ length (snd r1) = k).

  Definition sm {A B} (P : A -> B -> Prop) (m1 : SE (nb_state XR) A) (m2 : SE (nb_state XR) B) (s : nb_state XR) : Prop :=
    wf (fst (m1 s)) /\ fst (m2 (ms s)) = ms (fst (m1 s)) /\ rr P (snd (m1 s)) (snd (m2 (ms s))).
  Lemma sm_bind {A B C D} (P : A -> B -> Prop) (Q : C -> D -> Prop) m1 m2 (f : A -> SE (nb_state XR) C) (g : B -> SE (nb_state XR) D) s :
    sm P m1 m2 s -> (forall a b s', wf s' -> P a b -> sm Q (f a) (g b) s') -> sm Q (sbind m1 f) (sbind m2 g) s.
  Proof.
    intros (W & E & R) H. unfold sm, sbind. destruct (m1 s) as [s1 r1], (m2 (ms s)) as [s2 r2]. cbn [fst snd] in *. subst s2.
    destruct r1 as [a|e1], r2 as [b|e2]; cbn [rr] in R; try contradiction; cbn [fst snd]; [exact (H a b s1 W R)|]. subst. repeat split; auto; apply W.
  Qed.
  Lemma sm_lift {A B} (P : A -> B -> Prop) r1 r2 s : wf s -> rr P r1 r2 -> sm P (lift r1) (lift r2) s.
  Proof. intros W H. unfold sm, lift. cbn [fst snd]. auto. Qed.
  Lemma sm_get s : wf s -> sm (fun a b => b = ms a /\ a = s) sget sget s.
  Proof. intros W. unfold sm, sget. cbn [fst snd rr]. auto. Qed.
  Lemma sm_mod f g s : wf (f s) -> g (ms s) = ms (f s) -> sm (fun _ _ => True) (smod f) (smod g) s.
  Proof. intros W E. unfold sm, smod. cbn [fst snd rr]. auto. Qed.
  Lemma sm_ret {A B} (P : A -> B -> Prop) a b s : wf s -> P a b -> sm P (sret a) (sret b) s.
  Proof. intros W H. unfold sm, sret. cbn [fst snd rr]. auto. Qed.
  Lemma sm_raise {A B} (P : A -> B -> Prop) e s : wf s -> sm P (sraise e) (sraise e) s.
  Proof. intros W. unfold sm, sraise. cbn [fst snd rr]. auto. Qed.
  Lemma rr_bind {A B C D} (P : A -> B -> Prop) (Q : C -> D -> Prop) r1 r2 (f : A -> res C) (g : B -> res D) :
    rr P r1 r2 -> (forall a b, P a b -> rr Q (f a) (g b)) -> rr Q (rbind r1 f) (rbind r2 g).
  Proof. destruct r1, r2; cbn; intros H G; try contradiction; auto. Qed.
  Lemma rr_rseq {A B} (P : A -> B -> Prop) : forall l1 l2, Forall2 (rr P) l1 l2 -> rr (Forall2 P) (rseq l1) (rseq l2).
  Proof.
    induction 1 as [|r1 r2 l1 l2 H _ IH]; [constructor|]. cbn [rseq]. destruct r1, r2; cbn in H; try contradiction; [|exact H].
    destruct (rseq l1), (rseq l2); cbn in *; try contradiction; auto.
  Qed.
  Lemma rr_weaken {A B} (P Q : A -> B -> Prop) r1 r2 : (forall a b, P a b -> Q a b) -> rr P r1 r2 -> rr Q r1 r2.
  Proof. destruct r1, r2; cbn; auto. Qed.
  Lemma rr_at (m : list (list XR)) i : is_matrix k m -> rr (fun v v' => v' = mv v /\ length v = k) (at_ m i) (at_ (mm m) i).
  Proof.
    intros Hm. unfold moved_rows. rewrite at_map. destruct (at_ m i) as [v|e] eqn:E; cbn [rmap rr]; [|reflexivity]. split; [reflexivity|].
    apply at_ok, nth_error_In in E. unfold is_matrix in Hm. rewrite Forall_forall in Hm. auto.
  Qed.

  Context (delta : R) (I Nd : list R) (av : @asf_val XR) (p1 p2 : nb_problem XR).
  Context (HD : proper_data t delta I Nd) (HA : changes_by_a_constant t delta I Nd av) (MP : moved_nb_problem t delta I Nd p1 p2).
  Notation ideal := (xv I).
  Notation nadir := (xv Nd).

  (** One scalarized problem. *)
  Lemma disc_moved a z objs cd1 cd2 : regular t delta I Nd a z -> is_matrix k objs ->
    match cd1, cd2 with None, None => True | Some c1, Some c2 => c2 (mm objs) = c1 objs | _, _ => False end ->
    disc_minimize av (moved_asf t a) (mv z) (mm objs) cd2 = disc_minimize av a z objs cd1.
  Proof.
    intros HR Hm HC. unfold disc_minimize. destruct (HA a z HR) as (c & Hc).
    assert (G : forall rows, is_matrix k rows -> (do vals <- rseq (map (fun row => av (moved_asf t a) row (mv z)) (mm rows)); npnanargmin vals) = (do vals <- rseq (map (fun row => av a row z) rows); npnanargmin vals)).
    { intros rows Hrows. unfold moved_rows. rewrite map_map.
      assert (E : rseq (map (fun x => av (moved_asf t a) (mv x) (mv z)) rows) = rmap (map (up c)) (rseq (map (fun row => av a row z) rows))).
      { induction Hrows as [|r rows Hr _ IH]; [reflexivity|]. cbn [map rseq]. rewrite Hc by exact Hr. destruct (av a r z); [|reflexivity]. cbn [rmap rbind]. rewrite IH. destruct (rseq (map (fun row => av a row z) rows)); reflexivity. }
      rewrite E. destruct (rseq (map (fun row => av a row z) rows)) as [vals|e]; [|reflexivity]. cbn [rmap rbind]. apply up_nanargmin. }
    destruct cd1 as [c1|], cd2 as [c2|]; try contradiction; [|exact (G objs Hm)].
    rewrite HC. destruct (c1 objs) as [mask|e]; [|reflexivity]. cbn [rbind].
    set (sel := fun (ok : bool) (row : list XR) => if ok then row else map (fun _ => nnan) row).
    assert (Z : forall m l, zipw sel m (mm l) = mm (zipw sel m l)).
    { induction m as [|b m IH]; intros [|r l]; cbn [zipw moved_rows map]; auto. f_equal; [|apply IH]. destruct b; cbn [sel]; [reflexivity|].
      transitivity (map (fun _ : XR => XNan) r); [|symmetry; apply moved_nan].
      assert (L := moved_length t r). revert L. generalize (mv r). intros w. revert r. induction w as [|y w IHw]; intros [|x r] Hl; cbn in *; try discriminate; auto. f_equal. apply IHw. lia. }
    rewrite Z. apply G. clear -Hm. revert mask. induction Hm as [|r objs Hr _ IH]; intros [|b mask]; cbn; constructor; [|apply IH].
    destruct b; cbn [sel]; [exact Hr|rewrite map_length; exact Hr].
  Qed.
  Lemma solve_moved cur a z cmo1 cmo2 cd1 cd2 : regular t delta I Nd a z -> same_constraint cmo1 cmo2 ->
    match p1 with PMO _ _ _ _ => True | PDisc _ objs _ _ =>
      match cd1, cd2 with None, None => True | Some c1, Some c2 => c2 (mm objs) = c1 objs | _, _ => False end end ->
    rr pair_rel (nb_solve av p1 cur a z cmo1 cd1) (nb_solve av p2 cur (moved_asf t a) (mv z) cmo2 cd2).
  Proof.
    intros HR HC HD1. unfold nb_solve. destruct p1 as [n1 ev1 co1 min1|n1 ob1 de1 cl1], p2 as [n2 ev2 co2 min2|n2 ob2 de2 cl2]; try contradiction.
    - destruct MP as (-> & -> & -> & HE & HM). rewrite (HM a z cmo1 cmo2 cur HR HC). destruct (min1 a z cmo1 cur) as [r|e]; [|reflexivity]. cbn [rbind rr fst snd].
      destruct (HE (fst r)) as [H1 ->]. auto.
    - destruct MP as (-> & -> & Hm & -> & -> & ->). rewrite (disc_moved a z ob1 cd1 cd2 HR Hm HD1).
      destruct (disc_minimize av a z ob1 cd1) as [i|e]; [|reflexivity]. cbn [rbind].
      destruct (at_ de1 i) as [x|e]; [|reflexivity]. cbn [rbind]. eapply rr_bind; [apply (rr_at ob1 i Hm)|]. intros f f' [-> Hf]. cbn. auto.
  Qed.
  Lemma row_moved (cur lv f : list XR) a b c d : length cur = k -> length lv = k -> length f = k ->
    cons_row (mv cur) (mv lv) a b c d (mv f) = cons_row cur lv a b c d f.
  Proof.
    intros H1 H2 H3. unfold cons_row. rewrite !take_moved by assumption.
    repeat (match goal with |- context [take ?v ?l] => let E := fresh "E" in destruct (take v l) eqn:E; [cbn [rmap rbind]; apply take_len in E|reflexivity] end).
    unfold vsub. rewrite !(moved_zipw nsub) by (rewrite ?tl_len; auto; intros; apply up_sub). reflexivity.
  Qed.
  Lemma obj1 : p_nobj p1 = k /\ p_nobj p2 = k.
  Proof. destruct p1, p2; cbn in MP |- *; intuition congruence. Qed.

  (** A classification. *)
  Lemma implied_moved cl cur lv z z' : length cl = k -> length cur = k -> length lv = k -> regular_answer t delta I Nd cur (MkBD (Some cl) (Some lv) None None None None None) ->
    ~ In CBad cl -> implied_point k cl ideal nadir cur lv z -> implied_point k cl (mv ideal) (mv nadir) (mv cur) (mv lv) z' ->
    z' = mv z /\ regular t delta I Nd (AStom ideal) z /\ regular t delta I Nd (AGuess nadir ideal (where_cls CFree cl)) z.
  Proof.
    intros Hcl Hcur Hlv HR HB [L1 H1] [L2 H2]. destruct HD as (LI & LN & HP). destruct (HR cl lv eq_refl eq_refl) as [_ HQ].
    assert (C : forall i, (i < k)%nat -> exists c x y r, nth_error cl i = Some c /\ nth_error I i = Some x /\ nth_error Nd i = Some y /\ nth_error z i = Some (Fin r) /\ r <> x - delta /\ (c <> CFree -> r <> y)).
    { intros i Hi. destruct (nth_error cl i) as [c|] eqn:Ec; [|apply nth_error_None in Ec; lia].
      destruct (nth_error I i) as [x|] eqn:Ex; [|apply nth_error_None in Ex; lia]. destruct (nth_error Nd i) as [y|] eqn:Ey; [|apply nth_error_None in Ey; lia].
      destruct (HQ i c x y Ec Ex Ey) as (r & E & R1 & R2). exists c, x, y, r. rewrite (H1 i Hi), Ec. auto 10. }
    assert (RZ : exists r, z = xv r).
    { assert (F : Forall (fun u : XR => exists r, u = Fin r) z).
      { apply Forall_forall. intros u Hu. apply In_nth_error in Hu as (i & Ei). assert (Hi : (i < k)%nat) by (rewrite <- L1; apply nth_error_Some; congruence).
        destruct (C i Hi) as (c & x & y & r & _ & _ & _ & E & _). exists r. congruence. }
      clear -F. induction F as [|u z (r & ->) _ (rs & ->)]; [exists []; reflexivity|exists (r :: rs); reflexivity]. }
    destruct RZ as (r & ->). rewrite xv_length in L1. split; [|split].
    - apply nth_error_ext. intros i. rewrite moved_nth_error by (rewrite xv_length; exact L1). destruct (Nat.lt_ge_cases i k) as [Hi|Hi].
      + rewrite (H2 i Hi), (H1 i Hi). destruct (nth_error cl i) as [c|] eqn:Ec; [|apply nth_error_None in Ec; lia].
        destruct c; cbn [implied_level]; rewrite ?moved_nth_error by (rewrite ?xv_length; assumption); try reflexivity. exfalso. apply HB. apply nth_error_In in Ec. exact Ec.
      + rewrite !(proj2 (nth_error_None _ _)) by (rewrite ?xv_length; lia). reflexivity.
    - cbn [regular]. split; [reflexivity|]. exists r. split; [reflexivity|]. split; [exact L1|]. intros j x y Ex Ey.
      assert (Hj : (j < k)%nat) by (rewrite <- L1; apply nth_error_Some; congruence). destruct (C j Hj) as (c & x' & y' & r' & _ & E1 & _ & E2 & R1 & _).
      rewrite xv_nth, Ex in E2. injection E2 as <-. congruence.
    - cbn [regular]. split; [reflexivity|]. split; [reflexivity|]. exists r. split; [reflexivity|]. split; [exact L1|]. intros j x y Hn Ex Ey.
      assert (Hj : (j < k)%nat) by (rewrite <- L1; apply nth_error_Some; congruence). destruct (C j Hj) as (c & x' & y' & r' & E0 & _ & E1 & E2 & _ & R2).
      rewrite xv_nth, Ex in E2. injection E2 as <-. assert (c <> CFree) by (intros ->; apply Hn; apply where_cls_in; exact E0). specialize (R2 H). congruence.
  Qed.
  Lemma zbar_both cl (i n cur lv : list XR) : length cl = k -> length i = k -> length n = k -> length cur = k -> length lv = k ->
    exists z, nb_zbar k i n cur lv (where_cls CImprove cl) (where_cls CImproveUntil cl) (where_cls CAccept cl) (where_cls CImpairUntil cl) (where_cls CFree cl) = Ok z.
  Proof.
    intros Hc Hi Hn Hu Hl. unfold nb_zbar.
    destruct (put_total (where_cls CImprove cl) (repeat (nofZ 0) k) i) as (z1 & -> & L1); [apply where_lts; rewrite ?repeat_length; congruence|]. rewrite repeat_length in L1. cbn [rbind].
    destruct (put_total (where_cls CImproveUntil cl) z1 lv) as (z2 & -> & L2); [apply where_lts; congruence|]. cbn [rbind].
    destruct (put_total (where_cls CAccept cl) z2 cur) as (z3 & -> & L3); [apply where_lts; congruence|]. cbn [rbind].
    destruct (put_total (where_cls CImpairUntil cl) z3 lv) as (z4 & -> & L4); [apply where_lts; congruence|]. cbn [rbind].
    destruct (put_total (where_cls CFree cl) z4 n) as (z5 & -> & L5); [apply where_lts; congruence|]. eauto.
  Qed.

  Lemma rel_request rs rs' : Forall2 pair_rel rs rs' -> map fst rs' = map fst rs /\ map snd rs' = mm (map snd rs) /\ is_matrix k (map snd rs).
  Proof.
    induction 1 as [|r r' rs rs' [-> Hr] _ (IH1 & IH2 & IH3)]; [repeat split; constructor|]. cbn [map moved_rows fst snd].
    rewrite IH1, IH2. repeat split. constructor; auto.
  Qed.
  Lemma cons_both (s : nb_state XR) lv a b c d : wf s -> length lv = k ->
    same_constraint (match p1 with PMO _ ev co _ => Some (cons_mo ev co (bs_obj s) lv a b c d) | _ => None end)
                    (match p2 with PMO _ ev co _ => Some (cons_mo ev co (mv (bs_obj s)) (mv lv) a b c d) | _ => None end).
  Proof.
    intros W Hl. destruct p1 as [n1 ev1 co1 min1|n1 ob1 de1 cl1], p2 as [n2 ev2 co2 min2|n2 ob2 de2 cl2]; try contradiction; [|exact Logic.I].
    destruct MP as (-> & -> & -> & HE & _). cbn [same_constraint]. intros x. unfold cons_mo. destruct (HE x) as [H1 ->].
    rewrite row_moved by (auto; apply W). reflexivity.
  Qed.
  Lemma cons_plain : same_constraint (match p1 with PMO _ _ co _ => option_map (fun c => fun x => Ok (c x)) co | _ => None end)
                                     (match p2 with PMO _ _ co _ => option_map (fun c => fun x => Ok (c x)) co | _ => None end).
  Proof.
    destruct p1 as [n1 ev1 co1 min1|n1 ob1 de1 cl1], p2 as [n2 ev2 co2 min2|n2 ob2 de2 cl2]; try contradiction; [|exact Logic.I].
    destruct MP as (-> & -> & -> & _). destruct co1; cbn; auto.
  Qed.
  Lemma new_moved s n cl lv : wf s -> length cl = k -> length lv = k -> ~ In CBad cl ->
    regular_answer t delta I Nd (bs_obj s) (MkBD (Some cl) (Some lv) None None None None None) ->
    rr qrel (nb_new_solutions av p1 ideal nadir s n lv (where_cls CImprove cl) (where_cls CImproveUntil cl) (where_cls CAccept cl) (where_cls CImpairUntil cl) (where_cls CFree cl))
            (nb_new_solutions av p2 (mv ideal) (mv nadir) (ms s) n (mv lv) (where_cls CImprove cl) (where_cls CImproveUntil cl) (where_cls CAccept cl) (where_cls CImpairUntil cl) (where_cls CFree cl)).
  Proof.
    intros W Hcl Hlv HB HR. pose proof HD as (LI & LN & _). pose proof obj1 as [O1 O2]. unfold nb_new_solutions. cbn [ms bs_obj bs_sol].
    set (imp := where_cls CImprove cl). set (iu := where_cls CImproveUntil cl). set (acc := where_cls CAccept cl). set (pu := where_cls CImpairUntil cl). set (fr := where_cls CFree cl).
    assert (RP : forall z, length z = k -> regular t delta I Nd (APoint nadir ideal) z) by (intros z Hz; cbn; auto).
    assert (RM : regular t delta I Nd (AMaxOfTwo nadir ideal imp iu) lv) by (cbn; auto).
    assert (ND : match p1 with PMO _ _ _ _ => True | PDisc _ objs _ _ => match (@None (list (list XR) -> res (list bool))), (@None (list (list XR) -> res (list bool))) with None, None => True | Some c1, Some c2 => c2 (mm objs) = c1 objs | _, _ => False end end) by (destruct p1; exact Logic.I).
    destruct (zbar_both cl ideal nadir (bs_obj s) lv Hcl ltac:(rewrite xv_length; exact LI) ltac:(rewrite xv_length; exact LN) (wf_obj s W) Hlv) as (z & EZ).
    destruct (zbar_both cl (mv ideal) (mv nadir) (mv (bs_obj s)) (mv lv) Hcl ltac:(rewrite moved_length, xv_length; exact LI) ltac:(rewrite moved_length, xv_length; exact LN) ltac:(rewrite moved_length; apply W) ltac:(rewrite moved_length; exact Hlv)) as (z' & EZ').
    pose proof (zbar_implied _ _ _ _ _ _ _ EZ) as IZ. pose proof (zbar_implied _ _ _ _ _ _ _ EZ') as IZ'.
    destruct (implied_moved cl (bs_obj s) lv z z' Hcl (wf_obj s W) Hlv HR HB IZ IZ') as (-> & RS & RG).
    fold imp iu acc pu fr in EZ, EZ'. fold fr in RG. rewrite O1, O2, EZ, EZ'.
    eapply rr_bind.
    { apply (solve_moved (bs_sol s) (AMaxOfTwo nadir ideal imp iu) lv); [exact RM|apply cons_both; auto|].
      destruct p1 as [|n1 ob1 de1 cl1]; [exact Logic.I|]. destruct p2 as [|n2 ob2 de2 cl2]; [contradiction|]. destruct MP as (_ & _ & Hm & _).
      unfold cons_disc, moved_rows. rewrite map_map. f_equal. apply map_ext_in. intros f Hf. unfold is_matrix in Hm. rewrite Forall_forall in Hm. rewrite row_moved; auto. apply W. }
    intros r1 r1' R1. eapply (rr_bind (Forall2 pair_rel)).
    { destruct (1 <? n)%Z; [|constructor]. cbn [rbind].
      eapply rr_bind; [apply (solve_moved (bs_sol s) (AStom ideal) z _ _ None None RS cons_plain ND)|]. intros r2 r2' R2.
      eapply (rr_bind (Forall2 pair_rel)).
      { destruct (2 <? n)%Z; [|constructor].
        eapply rr_bind; [apply (solve_moved (bs_sol s) (APoint nadir ideal) z _ _ None None (RP z (proj1 IZ)) cons_plain ND)|]. intros r3 r3' R3.
        eapply (rr_bind (Forall2 pair_rel)).
        { destruct (3 <? n)%Z; [|constructor].
          eapply rr_bind; [apply (solve_moved (bs_sol s) (AGuess nadir ideal fr) z _ _ None None RG cons_plain ND)|]. intros r4 r4' R4. cbn. auto. }
        intros rs4 rs4' R4. cbn. auto. }
      intros rs3 rs3' R3. cbn. auto. }
    intros rs rs' RS'. assert (RR : Forall2 pair_rel (r1 :: rs) (r1' :: rs')) by (constructor; assumption).
    apply rel_request in RR. destruct RR as (E1 & E2 & E3). cbn [rr]. split; [|exact E3]. cbn [moved_nb]. f_equal; assumption.
  Qed.
  Lemma valid_cls f d : nb_validate p1 ideal nadir (QClass f) d = Ok tt -> exists cl lv, bd_cls d = Some cl /\ bd_levels d = Some lv /\ ~ In CBad cl /\ length lv = k.
  Proof.
    cbn [nb_validate]. unfold nb_validate_cls. rewrite (proj1 obj1). destruct (bd_cls d) as [cl|]; [|discriminate]. destruct (bd_levels d) as [lv|]; [|discriminate].
    destruct (bd_nsol d); [|discriminate]. destruct (forallb (fun c => negb (cls_eqb c CBad)) cl) eqn:E; [|discriminate]. cbn [negb].
    destruct (Nat.eqb (length lv) 1); [discriminate|]. destruct (Nat.eqb_spec (length lv) k); [|discriminate]. intros _. exists cl, lv. repeat split; auto.
    intros HB. rewrite forallb_forall in E. specialize (E _ HB). discriminate.
  Qed.
  Lemma handle_cls_moved f d s : wf s -> nb_validate p1 ideal nadir (QClass f) d = Ok tt -> regular_answer t delta I Nd (bs_obj s) d ->
    rr qrel (nb_handle_cls av p1 ideal nadir s d) (nb_handle_cls av p2 (mv ideal) (mv nadir) (ms s) (moved_classes t d)).
  Proof.
    intros W HV HR. destruct (valid_cls f d HV) as (cl & lv & E1 & E2 & HB & Hl). destruct (HR cl lv E1 E2) as [Hcl _].
    unfold nb_handle_cls. cbn [moved_classes bd_cls bd_levels bd_nsol]. rewrite E1, E2. cbn [key option_map rbind].
    destruct (key (bd_nsol d)) as [ns|e]; [|reflexivity]. cbn [rbind]. destruct (py_toint ns) as [n|e]; [|reflexivity]. cbn [rbind].
    apply new_moved; auto. intros cl' lv' [= <-] [= <-]. exact (HR cl lv E1 E2).
  Qed.

  (** The archive. *)
  Lemma py_nth_moved m i : is_matrix k m -> rr (fun v v' => v' = mv v /\ length v = k) (py_nth m i) (py_nth (mm m) i).
  Proof.
    intros Hm. unfold py_nth. unfold moved_rows at 1. rewrite map_length. destruct (py_pos (length m) i) as [j|]; [|reflexivity].
    exact (rr_at m j Hm).
  Qed.
  Lemma ztake_moved m ix : is_matrix k m -> rr (fun v v' => v' = mm v /\ is_matrix k v) (ztake m ix) (ztake (mm m) ix).
  Proof.
    intros Hm. unfold ztake. eapply rr_weaken; [|apply (rr_rseq (fun v v' => v' = mv v /\ length v = k)); induction ix as [|i ix IH]; cbn; constructor; [apply py_nth_moved; exact Hm|exact IH]].
    intros a b H. induction H as [|x y a b [-> Hx] _ [-> IH2]]; [split; [reflexivity|constructor]|]. split; [reflexivity|constructor; assumption].
  Qed.
  Lemma select_moved mask : forall m, is_matrix k m -> select mask (mm m) = mm (select mask m) /\ is_matrix k (select mask m).
  Proof.
    induction mask as [|b mask IH]; intros m Hm; [split; [reflexivity|constructor]|]. destruct Hm as [|r m Hr Hm]; [split; [reflexivity|constructor]|].
    cbn [moved_rows map select]. destruct (IH m Hm) as [E1 E2]. unfold moved_rows in E1. destruct b; [|auto]. rewrite E1. split; [reflexivity|constructor; auto].
  Qed.
  Lemma mm_app a b : mm (a ++ b) = mm a ++ mm b.
  Proof. apply map_app. Qed.
  Lemma mat_app (a b : list (list XR)) : is_matrix k a -> is_matrix k b -> is_matrix k (a ++ b).
  Proof. intros. apply Forall_app. auto. Qed.
  Lemma save_moved sols objs ix s : wf s -> is_matrix k objs -> sm qrel (nb_save sols objs ix) (nb_save sols (mm objs) ix) s.
  Proof.
    intros W Ho. unfold nb_save. eapply (sm_bind (fun _ _ => True)).
    - destruct (Nat.ltb 0 (length ix)); [|apply sm_ret; auto].
      eapply sm_bind; [apply sm_lift; [exact W|apply ztake_moved; exact Ho]|]. intros fo ? sa Wa (-> & Hfo).
      eapply sm_bind; [apply sm_mod; [constructor; cbn; [apply Wa|apply mat_app; [apply Wa|exact Hfo]]|unfold ms; cbn [bs_sol bs_obj bs_asols bs_aobjs bs_phase]; rewrite mm_app; reflexivity]|]. intros _ _ sb Wb _.
      eapply (sm_bind eq); [apply sm_lift; [exact Wb|apply rr_refl]|]. intros fs ? sc Wc <-.
      apply sm_mod; [constructor; cbn; apply Wc|reflexivity].
    - intros _ _ sa Wa _. eapply sm_bind; [apply sm_get; exact Wa|]. intros s1 s2 sb Wb [-> ->]. cbn [ms bs_asols bs_aobjs].
      apply sm_ret; [exact Wb|]. assert (EL : length (mm objs) = length objs) by apply map_length. rewrite EL. destruct (select_moved (keep_mask (length objs) ix) objs Ho) as [E1 E2]. rewrite E1, <- mm_app.
      split; [reflexivity|]. cbn [wfq]. apply mat_app; [apply Wa|exact E2].
  Qed.

  (** Intermediate solutions. *)
  Lemma inter_moved cur sols n : rr qrel (nb_intermediate av p1 ideal nadir cur sols n) (nb_intermediate av p2 (mv ideal) (mv nadir) cur sols n).
  Proof.
    unfold nb_intermediate. destruct (at_ sols 0) as [s0|e]; [|reflexivity]. cbn [rbind]. destruct (at_ sols 1) as [s1|e]; [|reflexivity]. cbn [rbind].
    destruct (nb_between s0 s1 (Z.to_nat n)) as [pts|e]; [|reflexivity]. cbn [rbind].
    eapply (rr_bind (Forall2 pair_rel)).
    - apply rr_rseq. induction pts as [|pt pts IH]; cbn [map]; constructor; [|exact IH]. clear IH.
      destruct p1 as [n1 ev1 co1 min1|n1 ob1 de1 cl1], p2 as [n2 ev2 co2 min2|n2 ob2 de2 cl2]; try contradiction.
      + destruct MP as (-> & -> & -> & HE & HM). destruct (HE pt) as [H1 ->].
        change (APoint (mv nadir) (mv ideal)) with (moved_asf t (APoint nadir ideal)).
        rewrite (HM (APoint nadir ideal) (ev1 pt) (option_map (fun c x => Ok (c x)) co1) _ cur); [|cbn; auto|destruct co1; cbn; auto].
        destruct (min1 _ _ _ _) as [r|e]; [|reflexivity]. cbn [rbind rr fst snd]. destruct (HE (fst r)) as [H2 ->]. auto.
      + destruct MP as (-> & -> & Hm & -> & -> & ->).
        eapply rr_bind; [apply (rr_at ob1 (cl1 pt) Hm)|]. intros ref ? [-> Hr].
        change (APoint (mv nadir) (mv ideal)) with (moved_asf t (APoint nadir ideal)).
        rewrite (disc_moved (APoint nadir ideal) ref ob1 None None) by (cbn; auto).
        destruct (disc_minimize av (APoint nadir ideal) ref ob1 None) as [i|e]; [|reflexivity]. cbn [rbind].
        destruct (at_ de1 i) as [x|e]; [|reflexivity]. cbn [rbind]. eapply rr_bind; [apply (rr_at ob1 i Hm)|]. intros f f' [-> Hf]. cbn. auto.
    - intros rs rs' RR. apply rel_request in RR. destruct RR as (E1 & E2 & E3). cbn [rr moved_nb]. split; [f_equal; assumption|exact E3].
  Qed.
  Lemma handle_inter_moved s sols objs d : is_matrix k objs ->
    rr qrel (nb_handle_inter av p1 ideal nadir s sols objs d) (nb_handle_inter av p2 (mv ideal) (mv nadir) (ms s) sols (mm objs) (moved_classes t d)).
  Proof.
    intros Ho. unfold nb_handle_inter. cbn [moved_classes bd_indices bd_ndes ms bs_sol]. destruct (key (bd_indices d)) as [ix|e]; [|reflexivity]. cbn [rbind].
    destruct (Nat.ltb 0 (length ix)); [|cbn; auto]. destruct (ztake sols ix) as [sel|e]; [|reflexivity]. cbn [rbind].
    destruct (key (bd_ndes d)) as [nv|e]; [|reflexivity]. cbn [rbind]. destruct (py_toint nv) as [n|e]; [|reflexivity]. apply inter_moved.
  Qed.
  Lemma pref_moved sols objs d s : wf s -> is_matrix k objs -> sm qrel (nb_handle_pref sols objs d) (nb_handle_pref sols (mm objs) (moved_classes t d)) s.
  Proof.
    intros W Ho. unfold nb_handle_pref. cbn [moved_classes bd_index bd_continue].
    eapply (sm_bind eq); [apply sm_lift; [exact W|apply rr_refl]|]. intros iv ? sa Wa <-.
    eapply (sm_bind eq); [apply sm_lift; [exact Wa|apply rr_refl]|]. intros i ? sb Wb <-.
    eapply (sm_bind eq); [apply sm_lift; [exact Wb|apply rr_refl]|]. intros x ? sc Wc <-.
    eapply sm_bind; [apply sm_mod; [constructor; cbn; apply Wc|reflexivity]|]. intros _ _ sd Wd _.
    eapply sm_bind; [apply sm_lift; [exact Wd|apply py_nth_moved; exact Ho]|]. intros f ? se We (-> & Hf).
    eapply sm_bind; [apply sm_mod; [constructor; cbn; [exact Hf|apply We]|reflexivity]|]. intros _ _ sf Wf _.
    eapply (sm_bind eq); [apply sm_lift; [exact Wf|apply rr_refl]|]. intros cv ? sg Wg <-.
    eapply sm_bind; [apply sm_get; exact Wg|]. intros s1 s2 sh Wh [-> ->].
    assert (Q1 : sm qrel (sret (QStop (bs_sol sg) (bs_obj sg))) (sret (QStop (bs_sol (ms sg)) (bs_obj (ms sg)))) sh) by (apply sm_ret; [exact Wh|]; split; [reflexivity|cbn; apply Wg]).
    destruct cv as [|[|]| | | |]; try exact Q1. apply sm_ret; [exact Wh|]. split; [reflexivity|cbn; apply Wg].
  Qed.

  (** One call. *)
  Lemma iterate_moved q resp s : wf s -> wfq q ->
    (forall d, resp = Some d -> nb_validate p1 ideal nadir q d = Ok tt /\ regular_answer t delta I Nd (bs_obj s) d) ->
    sm qrel (nb_iterate av p1 ideal nadir q resp) (nb_iterate av p2 (mv ideal) (mv nadir) (moved_nb t q) (option_map (moved_classes t) resp)) s.
  Proof.
    intros W WQ HV. unfold nb_iterate. eapply sm_bind; [apply sm_get; exact W|]. intros s1 s2 sa Wa [-> ->]. cbn [ms bs_phase].
    assert (RESP : rr (fun d d' => d' = moved_classes t d /\ resp = Some d) (resp_ resp) (resp_ (option_map (moved_classes t) resp))) by (destruct resp; cbn; auto).
    assert (PH : forall ph sx, wf sx -> sm (fun _ _ => True) (smod (w_phase ph)) (smod (w_phase ph)) sx).
    { intros ph sx Wx. apply sm_mod; [constructor; cbn; apply Wx|reflexivity]. }
    destruct (bs_phase s); destruct q as [f|so ob|so ob|so ob|x f]; cbn [moved_nb wfq] in *; try (apply sm_raise; exact Wa); try (apply sm_ret; [exact Wa|split; [reflexivity|exact WQ]]).
    - eapply sm_bind; [apply sm_lift; [exact Wa|exact RESP]|]. intros d ? sb Wb (-> & Ed). destruct (HV d Ed) as [HV1 HV2].
      eapply sm_bind; [apply sm_lift; [exact Wb|apply (handle_cls_moved f d s W HV1 HV2)]|]. intros r r' sc Wc HQ.
      eapply sm_bind; [apply PH; exact Wc|]. intros _ _ sd Wd _. apply sm_ret; assumption.
    - eapply sm_bind; [apply sm_lift; [exact Wa|exact RESP]|]. intros d ? sb Wb (-> & Ed). cbn [moved_classes bd_indices].
      eapply (sm_bind eq); [apply sm_lift; [exact Wb|apply rr_refl]|]. intros ix ? sc Wc <-.
      eapply sm_bind; [apply save_moved; assumption|]. intros r r' sd Wd HQ.
      eapply sm_bind; [apply PH; exact Wd|]. intros _ _ se We _. apply sm_ret; assumption.
    - eapply sm_bind; [apply sm_lift; [exact Wa|exact RESP]|]. intros d ? sb Wb (-> & Ed).
      eapply sm_bind; [apply sm_lift; [exact Wb|apply handle_inter_moved; exact WQ]|]. intros r r' sc Wc (-> & HQ).
      eapply (sm_bind (fun _ _ => True)); [destruct r; cbn [moved_nb]; try (apply PH; exact Wc); apply sm_ret; auto|]. intros _ _ sd Wd _. apply sm_ret; auto.
    - eapply sm_bind; [apply sm_lift; [exact Wa|exact RESP]|]. intros d ? sb Wb (-> & Ed).
      eapply sm_bind; [apply pref_moved; assumption|]. intros r r' sc Wc (-> & HQ).
      eapply (sm_bind (fun _ _ => True)); [destruct r; cbn [moved_nb]; try (apply PH; exact Wc); apply sm_ret; auto|]. intros _ _ sd Wd _. apply sm_ret; auto.
  Qed.

  (** The constructor. *)
  Lemma init_moved start x0 : (forall v, start = Some v -> length v = k) ->
    rr (fun s s' => s' = ms s /\ wf s) (nb_init av p1 ideal nadir start x0) (nb_init av p2 (mv ideal) (mv nadir) (option_map mv start) x0).
  Proof.
    intros HS. pose proof HD as (LI & LN & _). unfold nb_init.
    assert (OK1 : nb_start_ok (option_map mv start) (mv ideal) = nb_start_ok start ideal) by (destruct start; cbn; rewrite ?moved_length; reflexivity).
    rewrite OK1. set (r1 := match start with Some v => v | None => map (fun x => ndiv x (nofZ 2)) (vadd ideal nadir) end).
    assert (R : match option_map mv start with Some v => v | None => map (fun x => ndiv x (nofZ 2)) (vadd (mv ideal) (mv nadir)) end = mv r1 /\ length r1 = k).
    { unfold r1. destruct start as [v|]; cbn [option_map]; [split; [reflexivity|auto]|]. split.
      - exact (half_moved t I Nd LI LN).
      - rewrite map_length. unfold vadd. rewrite zipw_length, !xv_length, LI, LN. apply Nat.min_id. }
    destruct R as [-> Hr]. destruct (negb (nb_start_ok start ideal)); [reflexivity|].
    destruct p1 as [n1 ev1 co1 min1|n1 ob1 de1 cl1], p2 as [n2 ev2 co2 min2|n2 ob2 de2 cl2]; try contradiction.
    - destruct MP as (-> & -> & -> & HE & HM).
      change (APoint (mv nadir) (mv ideal)) with (moved_asf t (APoint nadir ideal)).
      rewrite (HM (APoint nadir ideal) r1 (option_map (fun c x => Ok (c x)) co1) _ x0); [|cbn; auto|destruct co1; cbn; auto].
      destruct (min1 _ _ _ _) as [r|e]; [|reflexivity]. cbn [rbind]. destruct (negb (snd r)); [reflexivity|]. cbn [rr]. destruct (HE (fst r)) as [H2 ->].
      split; [reflexivity|]. constructor; cbn; [exact H2|constructor].
    - destruct MP as (-> & -> & Hm & -> & -> & ->).
      change (APoint (mv nadir) (mv ideal)) with (moved_asf t (APoint nadir ideal)).
      rewrite (disc_moved (APoint nadir ideal) r1 ob1 None None) by (cbn; auto).
      destruct (disc_minimize av (APoint nadir ideal) r1 ob1 None) as [i|e]; [|reflexivity]. cbn [rbind].
      destruct (at_ de1 i) as [x|e]; [|reflexivity]. cbn [rbind]. eapply rr_bind; [apply (rr_at ob1 i Hm)|]. intros f f' [-> Hf]. cbn.
      split; [reflexivity|]. constructor; cbn; [exact Hf|constructor].
  Qed.

  (** Histories. *)
  Lemma shifted_inv start x0 s1 s2 qs : (forall v, start = Some v -> length v = k) -> nb_shifted t delta I Nd av p1 p2 start x0 s1 s2 qs ->
    s2 = ms s1 /\ wf s1 /\ Forall (fun p => qrel (fst p) (snd p)) qs.
  Proof.
    intros HS. induction 1 as [s1 s2 E1 E2|s1 s2 qs q1 q2 resp s1' out1 s2' out2 H (-> & W & HQ) Hin HV E1 E2].
    - pose proof (init_moved start x0 HS) as R. rewrite E1, E2 in R. cbn [rr] in R. destruct R as [-> W]. split; [reflexivity|]. split; [exact W|].
      constructor; [|constructor]. split; [reflexivity|]. cbn. apply W.
    - rewrite Forall_forall in HQ. pose proof (HQ _ Hin) as Hq. cbn [fst snd] in Hq. destruct Hq as [-> WQ].
      pose proof (iterate_moved q1 resp s1 W WQ HV) as (W' & E' & R). rewrite E1, E2 in *. cbn [fst snd] in *.
      split; [exact E'|]. split; [exact W'|]. rewrite <- Forall_forall in HQ.
      destruct out1, out2; auto.
  Qed.
End Sh.
