(** * NIMBUS: a session does not depend on what is in the archive (C110). *)
From Coq Require Import ZArith List Bool Lia.
From Verif Require Import Num Py Np Spec NpFacts Hoare MNimbus SNimbus SNimbus4.
Import ListNotations.

Section Sim.
  Context {N : NumOps} (av : @asf_val N) (p : nb_problem N) (ideal nadir : list N).
  Variables PS PF : list (list N).
  Hypothesis HL : length PS = length PF.
  Let m := length PF.
  Notation vec := (list N).
  Notation mat := (list (list N)).
  Notation tr := (further_in m).
  Notation lf := (listing_first PS PF).

  Definition front (s : nb_state N) : nb_state N := MkBS (bs_sol s) (bs_obj s) (PS ++ bs_asols s) (PF ++ bs_aobjs s) (bs_phase s).

  Lemma further_neg z : (further m z <? 0)%Z = (z <? 0)%Z.
  Proof. unfold further. destruct (Z.ltb_spec z 0) as [H|H]; [apply Z.ltb_lt; exact H|apply Z.ltb_ge; lia]. Qed.
  Lemma zmin_neg ix : (zmin ix <? 0)%Z = existsb (fun z => (z <? 0)%Z) ix.
  Proof.
    destruct ix as [|x ix]; [reflexivity|]. cbn [zmin existsb]. revert x. induction ix as [|y ix IH]; intros x; cbn [fold_left existsb]; [rewrite orb_false_r; reflexivity|].
    rewrite IH, orb_assoc. f_equal. destruct (Z.ltb_spec (Z.min x y) 0), (Z.ltb_spec x 0), (Z.ltb_spec y 0); cbn; lia.
  Qed.
  Lemma existsb_further ix : existsb (fun z => (z <? 0)%Z) (map (further m) ix) = existsb (fun z => (z <? 0)%Z) ix.
  Proof. induction ix as [|x ix IH]; [reflexivity|]. cbn [map existsb]. rewrite further_neg, IH. reflexivity. Qed.
  Lemma zmax_ge ix k : ix <> [] -> (k <=? zmax ix)%Z = existsb (fun z => (k <=? z)%Z) ix.
  Proof.
    destruct ix as [|x ix]; [congruence|]. intros _. cbn [zmax existsb]. revert x. induction ix as [|y ix IH]; intros x; cbn [fold_left existsb]; [rewrite orb_false_r; reflexivity|].
    rewrite IH, orb_assoc. f_equal. destruct (Z.leb_spec k (Z.max x y)), (Z.leb_spec k x), (Z.leb_spec k y); cbn; lia.
  Qed.
  Lemma range_same ix (os : mat) : ix <> [] ->
    ((Z.of_nat (length (PF ++ os)) <=? zmax (map (further m) ix))%Z || (zmin (map (further m) ix) <? 0)%Z) = ((Z.of_nat (length os) <=? zmax ix)%Z || (zmin ix <? 0)%Z).
  Proof.
    intros Hne. rewrite !zmin_neg, existsb_further. rewrite (zmax_ge ix) by exact Hne. rewrite (zmax_ge (map (further m) ix)) by (destruct ix; [congruence|discriminate]).
    destruct (existsb (fun z => (z <? 0)%Z) ix) eqn:E; [rewrite !orb_true_r; reflexivity|]. rewrite !orb_false_r. clear Hne. induction ix as [|x ix IH]; [reflexivity|].
    cbn [map existsb] in *. apply orb_false_iff in E. destruct E as [E1 E2]. rewrite IH by exact E2. f_equal. unfold further. rewrite E1. rewrite app_length. fold m.
    apply Z.ltb_ge in E1. destruct (Z.leb_spec (Z.of_nat (m + length os)) (x + Z.of_nat m)), (Z.leb_spec (Z.of_nat (length os)) x); auto; lia.
  Qed.

  Lemma validate_same q d : nb_validate p ideal nadir (lf q) (tr q d) = nb_validate p ideal nadir q d.
  Proof.
    destruct q as [r|ss os|ss os|ss os|x f]; try reflexivity; cbn [listing_first further_in nb_validate].
    - unfold nb_validate_inter. cbn [bd_indices bd_ndes]. destruct (bd_indices d) as [ix|]; [|reflexivity]. cbn [option_map]. destruct (bd_ndes d) as [nd|]; [|reflexivity].
      rewrite map_length. destruct (py_lt nd 0) as [[]|]; try reflexivity. cbn [rbind]. destruct (_ && _); [reflexivity|].
      destruct ix as [|x ix]; [reflexivity|]. cbn [Datatypes.length Nat.eqb rbind]. rewrite (range_same (x :: ix) os) by discriminate. reflexivity.
    - unfold nb_validate_pref. cbn [bd_index bd_continue]. destruct (bd_index d) as [i|]; [|reflexivity]. destruct (bd_continue d) as [c|]; [|destruct i; reflexivity].
      destruct i as [|b|z|x o|o|]; try reflexivity. destruct c; try reflexivity. unfold further. rewrite app_length. fold m. destruct (Z.ltb_spec z 0) as [Hz|Hz].
      + destruct (Z.leb_spec 0 z); [lia|]. reflexivity.
      + destruct (Z.leb_spec 0 z), (Z.leb_spec 0 (z + Z.of_nat m)); try lia. cbn [andb].
        destruct (Z.ltb_spec (z + Z.of_nat m) (Z.of_nat (m + length os))), (Z.ltb_spec z (Z.of_nat (length os))); auto; lia.
  Qed.

  Lemma nth_further {A} (pre l : list A) z : length pre = m -> (0 <= z)%Z -> py_nth (pre ++ l) (further m z) = py_nth l z.
  Proof.
    intros Hp Hz. unfold further. destruct (Z.ltb_spec z 0) as [?|_]; [lia|]. rewrite !py_nth_nonneg by lia. unfold at_. rewrite nth_error_app2 by lia.
    replace (Z.to_nat (z + Z.of_nat m) - length pre)%nat with (Z.to_nat z) by lia. reflexivity.
  Qed.
  Lemma take_further (pre l : mat) ix : length pre = m -> Forall (fun z => (0 <= z)%Z) ix -> ztake (pre ++ l) (map (further m) ix) = ztake l ix.
  Proof.
    intros Hp H. unfold ztake. rewrite map_map. f_equal. apply map_ext_in. intros z Hz. apply nth_further; auto. rewrite Forall_forall in H. auto.
  Qed.
  Lemma valid_nonneg ss os d ix : nb_validate p ideal nadir (QInter ss os) d = Ok tt -> bd_indices d = Some ix -> Forall (fun z => (0 <= z)%Z) ix.
  Proof.
    cbn [nb_validate]. unfold nb_validate_inter. intros H E. rewrite E in H. destruct (bd_ndes d) as [nd|]; [|discriminate].
    destruct ix as [|x ix]; [constructor|]. apply rbind_ok in H. destruct H as ([] & _ & H); [discriminate|]. destruct (_ && _) in H; [discriminate|].
    cbn [Datatypes.length Nat.eqb rbind] in H. rewrite zmin_neg in H.
    destruct (existsb (fun z => (z <? 0)%Z) (x :: ix)) eqn:E2; [rewrite orb_true_r in H; discriminate|].
    apply Forall_forall. intros z Hz. destruct (Z.ltb_spec z 0) as [L|L]; [|exact L]. exfalso.
    assert (existsb (fun z => (z <? 0)%Z) (x :: ix) = true); [|congruence]. apply existsb_exists. exists z. split; [exact Hz|apply Z.ltb_lt; exact L].
  Qed.

  Lemma inter_phase s ss os d r : nb_handle_inter av p ideal nadir s ss os d = Ok r -> (exists a b, r = QSave a b) \/ r = QPref ss os.
  Proof.
    unfold nb_handle_inter, nb_intermediate. intros H. apply rbind_ok in H. destruct H as (ix & _ & H). destruct (Nat.ltb 0 (length ix)); [|right; congruence]. left.
    repeat (apply rbind_ok in H; let a := fresh "a" in destruct H as (a & _ & H)). injection H as <-. eauto.
  Qed.

  Definition pair_front (r : nb_state N * res (nb_request N)) : nb_state N * res (nb_request N) := (front (fst r), rmap lf (snd r)).
  Lemma save_same (sols objs : mat) ix (s : nb_state N) :
    nb_save sols objs ix (front s) = pair_front (nb_save sols objs ix s).
  Proof.
    unfold nb_save, sbind, lift, smod, sget, sret. destruct (Nat.ltb 0 (length ix)).
    - destruct (ztake objs ix) as [fo|x]; [|reflexivity]. destruct (ztake sols ix) as [fs|x]; cbn.
      + unfold pair_front, front. cbn. rewrite !app_assoc. reflexivity.
      + unfold pair_front, front. cbn. rewrite !app_assoc. reflexivity.
    - unfold pair_front, front. cbn. rewrite !app_assoc. reflexivity.
  Qed.
  Lemma front_phase ph s : w_phase ph (front s) = front (w_phase ph s).
  Proof. reflexivity. Qed.
  Lemma save_kind (sols objs : mat) ix (s s' : nb_state N) r : nb_save sols objs ix s = (s', Ok r) -> exists a b, r = QInter a b.
  Proof.
    unfold nb_save, sbind, lift, smod, sget, sret. destruct (Nat.ltb 0 (length ix)); [destruct (ztake objs ix); [|discriminate]; destruct (ztake sols ix); [|discriminate]|];
    intros H; apply (f_equal snd) in H; cbn in H; injection H as <-; eauto.
  Qed.
  Lemma pref_same ss os d s : nb_validate p ideal nadir (QPref ss os) d = Ok tt ->
    nb_handle_pref (PS ++ ss) (PF ++ os) (tr (QPref ss os) d) (front s) = pair_front (nb_handle_pref ss os d s) /\
    (forall s' r, nb_handle_pref ss os d s = (s', Ok r) -> (exists f, r = QClass f) \/ exists x f, r = QStop x f).
  Proof.
    cbn [nb_validate]. unfold nb_validate_pref. cbn [further_in]. destruct (bd_index d) as [i|] eqn:Ei; [|discriminate]. destruct (bd_continue d) as [c|] eqn:Ec; [|discriminate].
    destruct i as [|b0|z|x o|o|]; try discriminate. destruct c as [|b|z0|x o|o|]; try discriminate. destruct (Z.leb_spec 0 z) as [Hz|]; [|discriminate]. intros _.
    unfold nb_handle_pref, sbind, lift, smod, sget, sret, key. cbn [bd_index bd_continue]. rewrite Ei, Ec.
    rewrite !nth_further by (auto; unfold m; congruence). split.
    - destruct (py_nth ss z) as [x|x]; [|reflexivity]. destruct (py_nth os z) as [f|f]; [|reflexivity]. destruct b; reflexivity.
    - intros s' r. destruct (py_nth ss z) as [x|x]; [|discriminate]. destruct (py_nth os z) as [f|f]; [|discriminate]. destruct b; intros H; apply (f_equal snd) in H; cbn in H; injection H as <-; [left; eexists; reflexivity|right; eauto].
  Qed.

  Lemma iterate_same q d s : nb_validate p ideal nadir q d = Ok tt ->
    nb_iterate av p ideal nadir (lf q) (Some (tr q d)) (front s) = pair_front (nb_iterate av p ideal nadir q (Some d) s).
  Proof.
    intros Hv. unfold nb_iterate. 
    assert (E : forall (f : nb_state N -> SE (nb_state N) (nb_request N)) t, sbind sget f t = f t t) by reflexivity. rewrite !E. clear E. cbn [front bs_phase].
    destruct (bs_phase s); destruct q as [r|ss os|ss os|ss os|x f]; try reflexivity; cbn [listing_first].
    - unfold sbind at 1 2 4 5, lift, resp_. cbn [further_in].
      change (nb_handle_cls av p ideal nadir (front s) d) with (nb_handle_cls av p ideal nadir s d).
      destruct (nb_handle_cls av p ideal nadir s d) as [r'|x] eqn:E; [|reflexivity].
      unfold smod, sret, sbind, pair_front. cbn [fst snd rmap]. f_equal. unfold nb_handle_cls, nb_new_solutions in E.
      repeat (apply rbind_ok in E; let a := fresh "a" in destruct E as (a & _ & E)). injection E as <-. reflexivity.
    - unfold sbind, lift, resp_. cbn [further_in]. destruct (key (bd_indices d)) as [ix|x]; [|reflexivity]. rewrite save_same.
      unfold pair_front at 1. destruct (nb_save ss os ix s) as [s' [r|x]] eqn:E; [|reflexivity]. reflexivity.
    - unfold sbind, lift, resp_. 
      assert (EH : nb_handle_inter av p ideal nadir (front s) (PS ++ ss) (PF ++ os) (tr (QInter ss os) d) = rmap lf (nb_handle_inter av p ideal nadir s ss os d)).
      { unfold nb_handle_inter. cbn [further_in bd_indices bd_ndes]. destruct (bd_indices d) as [ix|] eqn:Eix; [|reflexivity]. cbn [option_map key rbind]. rewrite map_length.
        destruct (Nat.ltb 0 (length ix)); [|reflexivity]. rewrite take_further by (auto; eapply valid_nonneg; eauto). destruct (ztake ss ix) as [sel|x]; [|reflexivity]. cbn [rbind].
        destruct (key (bd_ndes d)) as [nd|x]; [|reflexivity]. cbn [rbind]. destruct (py_toint nd) as [n|x]; [|reflexivity]. cbn [rbind front bs_sol].
        destruct (nb_intermediate av p ideal nadir (bs_sol s) sel n) as [r|x] eqn:E; [|reflexivity]. cbn [rmap]. f_equal. unfold nb_intermediate in E.
        repeat (apply rbind_ok in E; let a := fresh "a" in destruct E as (a & _ & E)). injection E as <-. reflexivity. }
      rewrite EH. destruct (nb_handle_inter av p ideal nadir s ss os d) as [r|x] eqn:E; [|reflexivity]. cbn [rmap].
      destruct (inter_phase s ss os d r E) as [(a & b & ->)| ->]; reflexivity.
    - unfold sbind at 1 2 4 5, lift, resp_. destruct (pref_same ss os d s Hv) as (E1 & E2). rewrite E1. unfold pair_front at 1.
      destruct (nb_handle_pref ss os d s) as [s' [r|x]]; [|reflexivity]. destruct (E2 _ _ eq_refl) as [(f & ->)|(x & f & ->)]; reflexivity.
  Qed.

  Lemma tr_lf q d : tr (lf q) d = tr q d.
  Proof. destruct q; reflexivity. Qed.
  Lemma play_same ds : forall q s, nb_play av p ideal nadir tr (lf q) ds (front s) = map (rmap lf) (nb_play av p ideal nadir as_given q ds s).
  Proof.
    induction ds as [|d ds IH]; intros q s; [reflexivity|]. cbn [nb_play]. rewrite tr_lf, validate_same. unfold as_given at 1.
    destruct (nb_validate p ideal nadir q d) as [[]|x] eqn:Ev; [|cbn [map rmap]; rewrite IH; reflexivity].
    rewrite iterate_same by exact Ev. unfold as_given at 1. destruct (nb_iterate av p ideal nadir q (Some d) s) as [s' [q'|x]]; unfold pair_front; cbn [fst snd rmap map]; rewrite IH; reflexivity.
  Qed.
End Sim.

(** On data the current decision vector plays no part. *)
Section Data.
  Context {N : NumOps} (av : @asf_val N) (k : nat) (objs decs : list (list N)) (closest : list N -> nat) (ideal nadir : list N).
  Let p := PDisc k objs decs closest.
  Definition but_sol (s1 s2 : nb_state N) : Prop := exists x, s2 = MkBS x (bs_obj s1) (bs_asols s1) (bs_aobjs s1) (bs_phase s1).
  Lemma iterate_but_sol q d s1 s2 : but_sol s1 s2 -> but_sol (fst (nb_iterate av p ideal nadir q d s1)) (fst (nb_iterate av p ideal nadir q d s2)) /\
    snd (nb_iterate av p ideal nadir q d s1) = snd (nb_iterate av p ideal nadir q d s2).
  Proof.
    intros (x & ->). destruct s1 as [x1 f1 a1 b1 ph]. unfold nb_iterate.
    assert (E : forall (f : nb_state N -> SE (nb_state N) (nb_request N)) t, sbind sget f t = f t t) by reflexivity. rewrite !E. clear E. cbn [bs_phase bs_obj bs_asols bs_aobjs].
    assert (R : forall (A : Type) (o : A) s x', but_sol s (MkBS x' (bs_obj s) (bs_asols s) (bs_aobjs s) (bs_phase s)) /\ o = o) by (intros; split; [eexists|]; reflexivity).
    destruct ph; destruct q as [r|ss os|ss os|ss os|y f]; try (split; [exists x; reflexivity|reflexivity]).
    - unfold sbind, lift, resp_. destruct d as [d|]; [|split; [exists x; reflexivity|reflexivity]].
      change (nb_handle_cls av p ideal nadir {| bs_sol := x; bs_obj := f1; bs_asols := a1; bs_aobjs := b1; bs_phase := PClassify |} d) with (nb_handle_cls av p ideal nadir {| bs_sol := x1; bs_obj := f1; bs_asols := a1; bs_aobjs := b1; bs_phase := PClassify |} d).
      destruct (nb_handle_cls av p ideal nadir _ d) as [r'|e]; (split; [exists x; reflexivity|reflexivity]).
    - unfold sbind, lift, resp_. destruct d as [d|]; [|split; [exists x; reflexivity|reflexivity]]. destruct (key (bd_indices d)) as [ix|e]; [|split; [exists x; reflexivity|reflexivity]].
      unfold nb_save, sbind, lift, smod, sget, sret. destruct (Nat.ltb 0 (length ix)); [|split; [exists x; reflexivity|reflexivity]].
      destruct (ztake os ix); [|split; [exists x; reflexivity|reflexivity]]. destruct (ztake ss ix); (split; [exists x; reflexivity|reflexivity]).
    - unfold sbind, lift, resp_. destruct d as [d|]; [|split; [exists x; reflexivity|reflexivity]].
      change (nb_handle_inter av p ideal nadir {| bs_sol := x; bs_obj := f1; bs_asols := a1; bs_aobjs := b1; bs_phase := PIntermediate |} ss os d) with (nb_handle_inter av p ideal nadir {| bs_sol := x1; bs_obj := f1; bs_asols := a1; bs_aobjs := b1; bs_phase := PIntermediate |} ss os d).
      destruct (nb_handle_inter av p ideal nadir _ ss os d) as [[]|e]; (split; [exists x; reflexivity|reflexivity]).
    - unfold sbind, lift, resp_. destruct d as [d|]; [|split; [exists x; reflexivity|reflexivity]].
      unfold nb_handle_pref, sbind, lift, smod, sget, sret. destruct (key (bd_index d)) as [iv|e]; [|split; [exists x; reflexivity|reflexivity]].
      destruct iv; try (split; [exists x; reflexivity|reflexivity]). destruct (py_nth ss z) as [y|e]; [|split; [exists x; reflexivity|reflexivity]].
      destruct (py_nth os z) as [f|e]; [|split; [exists y; reflexivity|reflexivity]]. destruct (key (bd_continue d)) as [cv|e]; [|split; [exists y; reflexivity|reflexivity]].
      destruct cv as [|[]| | | |]; (split; [exists y; reflexivity|reflexivity]).
  Qed.
  Lemma play_but_sol tr ds : forall q s1 s2, but_sol s1 s2 -> nb_play av p ideal nadir tr q ds s1 = nb_play av p ideal nadir tr q ds s2.
  Proof.
    induction ds as [|d ds IH]; intros q s1 s2 H; [reflexivity|]. cbn [nb_play]. destruct (nb_validate p ideal nadir q (tr q d)) as [u|x]; [|f_equal; apply IH; exact H].
    destruct (iterate_but_sol q (Some (tr q d)) s1 s2 H) as (H1 & H2). destruct (nb_iterate av p ideal nadir q (Some (tr q d)) s1) as [t1 o1], (nb_iterate av p ideal nadir q (Some (tr q d)) s2) as [t2 o2].
    cbn [fst snd] in H1, H2. subst o2. f_equal. apply IH. exact H1.
  Qed.
End Data.
