(** * NIMBUS with its plot requests: the same sessions, and what the plots show. *)
From Coq Require Import ZArith String List Bool Lia.
From Verif Require Import Num Py Np Spec NpFacts MNimbus SNimbus PNimbus PNimbus2 PNimbus4 MNimbusPlot SNimbusPlot.
Import ListNotations.

Section Plots.
  Context {N : NumOps}.
  Notation vec := (list N).
  Notation mat := (list (list N)).
  Variables (av : @asf_val N) (p : nb_problem N) (names : list string) (mult ideal nadir : vec).
  Hypothesis HW : plot_wf p names mult ideal nadir.
  Notation plot := (nb_create_plot p names mult ideal nadir).
  Notation iter := (nb_iterate av p ideal nadir).
  Notation iter_p := (nb_iterate_p av p names mult ideal nadir).

  Lemma wf_any : nb_wf (fun _ : N => True) p ideal nadir.
  Proof. apply HW. Qed.
  Lemma rows_k (sols objs : mat) : Forall2 (matches p) sols objs -> forallb (fun r => Nat.eqb (length r) (length names)) objs = true.
  Proof.
    intros H. apply forallb_forall. intros r Hr. apply Nat.eqb_eq. apply In_nth_error in Hr as (i & Hi).
    destruct (Forall2_nth _ _ _ _ _ H Hi) as (x & _ & M). destruct HW as (W & _ & En & _). rewrite En. eapply obj_wf; eauto.
  Qed.
  Lemma create a rows : nb_frame names a = Ok rows -> plot a = Ok (MkPlot names (shown_minimize p names mult) ideal nadir rows).
  Proof.
    intros H. destruct HW as ((_ & Ei & Ed & _) & _ & En & Em). unfold nb_create_plot.
    assert (L : forall v, length v = p_nobj p -> nb_loc (N:=N) names v = Ok v) by (intros v Hv; unfold nb_loc; rewrite Hv, En, Nat.eqb_refl; reflexivity).
    assert (M : nb_loc names (shown_minimize p names mult) = Ok (shown_minimize p names mult)).
    { apply L. unfold shown_minimize. destruct p; cbn; [exact Em|]. rewrite map_length. exact En. }
    change (match p with PMO _ _ _ _ => mult | PDisc _ _ _ _ => map (fun _ => nofZ 1) names end) with (shown_minimize p names mult).
    rewrite M. cbn [rbind]. rewrite !L by assumption. cbn [rbind]. rewrite H. reflexivity.
  Qed.
  Lemma create_bad : plot (FArrayOf []) = Raise ValueErr.
  Proof.
    destruct HW as ((_ & Ei & Ed & _) & K & En & Em). unfold nb_create_plot.
    assert (L : forall v, length v = p_nobj p -> nb_loc (N:=N) names v = Ok v) by (intros v Hv; unfold nb_loc; rewrite Hv, En, Nat.eqb_refl; reflexivity).
    assert (M : nb_loc names (shown_minimize p names mult) = Ok (shown_minimize p names mult)).
    { apply L. unfold shown_minimize. destruct p; cbn; [exact Em|]. rewrite map_length. exact En. }
    change (match p with PMO _ _ _ _ => mult | PDisc _ _ _ _ => map (fun _ => nofZ 1) names end) with (shown_minimize p names mult).
    rewrite M. cbn [rbind]. rewrite !L by assumption. cbn [rbind]. unfold nb_frame. rewrite En. destruct (Nat.eqb_spec (p_nobj p) 1); [lia|reflexivity].
  Qed.

  (** the plot belonging to the request returned in a phase *)
  Definition plot_of (ph : nb_phase) (q : nb_request N) : option (nb_plot N) :=
    match ph, q with
    | PEnd, _ | _, QClass _ => None
    | _, QSave _ objs | _, QInter _ objs | _, QPref _ objs => Some (MkPlot names (shown_minimize p names mult) ideal nadir objs)
    | _, QStop _ f => Some (MkPlot names (shown_minimize p names mult) ideal nadir [f])
    end.
  Definition unplottable (ph : nb_phase) (q : nb_request N) : bool :=
    match ph, q with PIntermediate, QPref _ [] => true | _, _ => false end.

  Lemma wrong_p s q resp : bs_phase s <> PEnd -> ~ awaits (bs_phase s) q -> iter_p q resp s = (s, Raise MethodExn).
  Proof.
    intros H G. unfold nb_iterate_p, sbind, sget, sraise.
    destruct (bs_phase s), q; cbn in G; try tauto; congruence.
  Qed.
  Lemma step_p s qs q resp s' out : inv p s qs -> In q qs ->
    (forall d, resp = Some d -> nb_validate p ideal nadir q d = Ok tt) ->
    iter q resp s = (s', out) ->
    iter_p q resp s = match out with
                      | Raise e => (s', Raise e)
                      | Ok q' => if unplottable (bs_phase s) q' then (s, Raise ValueErr) else (s', Ok (q', plot_of (bs_phase s) q'))
                      end.
  Proof.
    intros (I1 & I2 & I3) Hin HV H. assert (Hg : good p q) by (rewrite Forall_forall in I3; auto).
    destruct (bs_phase s) eqn:Ep.
    - destruct q as [f| | | |]; try (rewrite iter_wrong in H by (rewrite Ep; (discriminate || intros [])); injection H as <- <-; apply wrong_p; rewrite Ep; (discriminate || intros [])).
      unfold nb_iterate, sbind, sget, lift, smod, sret in H. unfold nb_iterate_p, nb_handle_cls_p, sbind, sget, lift, smod, sret. rewrite Ep in *.
      destruct resp as [d|]; cbn [resp_] in *; [|injection H as <- <-; reflexivity].
      destruct (nb_handle_cls av p ideal nadir s d) as [q|e] eqn:E; injection H as <- <-; cbn [rbind]; [|reflexivity].
      apply handle_cls_shape in E as (sols & objs & -> & G). rewrite (create (FList objs) objs) by (cbn; rewrite (rows_k _ _ G); reflexivity). reflexivity.
    - destruct q as [|sols objs| | |]; try (rewrite iter_wrong in H by (rewrite Ep; (discriminate || intros [])); injection H as <- <-; apply wrong_p; rewrite Ep; (discriminate || intros [])).
      pose proof H as H0. apply iter_save in H0; auto.
      destruct H0 as [(-> & -> & ->)|(d & ix & fs & fo & -> & Hix & Rs & Ro & -> & ->)].
      { unfold nb_iterate_p, sbind, sget, lift. rewrite Ep. reflexivity. }
      assert (GA : Forall2 (matches p) (bs_asols s ++ fs) (bs_aobjs s ++ fo)) by (apply Forall2_app; auto; eapply rows_at_good; eauto).
      assert (GB : Forall2 (matches p) ((bs_asols s ++ fs) ++ others sols ix) ((bs_aobjs s ++ fo) ++ others objs ix)).
      { apply Forall2_app; auto. apply others_Forall2. exact Hg. }
      unfold nb_iterate in H. unfold nb_iterate_p, nb_save_p. unfold sbind at 1 in H. unfold sget at 1 in H. rewrite Ep in H.
      unfold sbind at 1. unfold sget at 1. rewrite Ep. unfold sbind, lift in *. cbn [resp_] in *. rewrite Hix in *. cbn [key] in *.
      destruct (nb_save sols objs ix s) as [s1 [q|e]]; [|discriminate].
      unfold smod, sret in *. assert (H1 := f_equal fst H). assert (H2 := f_equal snd H). cbn [fst snd] in H1, H2. injection H2 as ->. rewrite (create (FList _) _) by (cbn; rewrite (rows_k _ _ GB); reflexivity).
      cbn [unplottable plot_of]. rewrite <- H1. reflexivity.
    - destruct q as [| |sols objs| |]; try (rewrite iter_wrong in H by (rewrite Ep; (discriminate || intros [])); injection H as <- <-; apply wrong_p; rewrite Ep; (discriminate || intros [])).
      unfold nb_iterate, sbind, sget, lift, smod, sret in H. unfold nb_iterate_p, nb_handle_inter_p, sbind, sget, lift, smod, sret. rewrite Ep in *.
      destruct resp as [d|]; cbn [resp_] in *; [|injection H as <- <-; reflexivity].
      destruct (nb_handle_inter av p ideal nadir s sols objs d) as [q|e] eqn:E; [|injection H as <- <-; reflexivity].
      destruct (handle_inter_shape _ _ _ _ _ _ _ _ _ E Hg) as [(s1 & o1 & -> & G)| ->]; injection H as <- <-; cbn [rbind].
      + rewrite (create (FArray2 _) o1) by (cbn; rewrite (rows_k _ _ G); reflexivity). reflexivity.
      + destruct objs as [|o objs].
        * rewrite create_bad. reflexivity.
        * rewrite (create (FArrayOf _) (o :: objs)) by (unfold nb_frame; rewrite (rows_k _ _ Hg); reflexivity). reflexivity.
    - destruct q as [| | |sols objs|]; try (rewrite iter_wrong in H by (rewrite Ep; (discriminate || intros [])); injection H as <- <-; apply wrong_p; rewrite Ep; (discriminate || intros [])).
      pose proof H as H0. apply iter_pref in H0; auto.
      destruct H0 as [(-> & -> & ->)|(d & z & b & x & f & -> & Hz & Hb & Hp & Ex & Ef & -> & ->)].
      { unfold nb_iterate_p, sbind, sget, lift. rewrite Ep. reflexivity. }
      assert (M : matches p x f) by (destruct (Forall2_nth _ _ _ _ _ Hg Ef) as (x' & Ex' & M); congruence).
      unfold nb_iterate in H. unfold nb_iterate_p, nb_handle_pref_p. unfold sbind at 1 in H. unfold sget at 1 in H. rewrite Ep in H.
      unfold sbind at 1. unfold sget at 1. rewrite Ep. unfold sbind at 1 in H. unfold lift at 1 in H. cbn [resp_] in *.
      unfold sbind at 1. unfold lift at 1. cbn [resp_].
      unfold sbind at 1 in H. unfold sbind at 1. unfold sbind at 1.
      destruct (nb_handle_pref sols objs d s) as [s1 [q|e]]; [|discriminate].
      unfold sbind, smod, sret, lift in *. destruct b, q; try discriminate; assert (H1 := f_equal fst H); assert (H2 := f_equal snd H); cbn [fst snd] in H1, H2; try discriminate H2.
      + injection H2 as ->. cbn [unplottable plot_of fst]. rewrite <- H1. reflexivity.
      + injection H2 as -> ->. assert (Fr : Forall2 (matches p) [x] [f]) by (constructor; [assumption|constructor]).
        rewrite (create (FArray2 [f]) [f]) by (unfold nb_frame; rewrite (rows_k _ _ Fr); reflexivity). cbn [unplottable plot_of fst]. rewrite <- H1. reflexivity.
    - rewrite iter_end in H by auto. injection H as <- <-. unfold nb_iterate_p, sbind, sget. rewrite Ep. reflexivity.
  Qed.

  (** ** Histories *)
  Lemma In_fst (q : nb_request N) (pl : option (nb_plot N)) qs : In (q, pl) qs -> In q (map fst qs).
  Proof. intros H. apply (in_map fst) in H. exact H. Qed.
  Lemma reach_p_reach start x0 s0 s qs : nb_init av p ideal nadir start x0 = Ok s0 ->
    nb_reach_p av p names mult ideal nadir s0 s qs -> nb_reach av p ideal nadir s0 s (map fst qs).
  Proof.
    intros H0. induction 1 as [|s qs q pl resp s' out HR IH Hin HV H]; [constructor|].
    pose proof (inv_reach _ _ _ _ _ _ _ _ _ H0 IH) as HI. destruct (iter q resp s) as [s1 o1] eqn:E.
    rewrite (step_p s (map fst qs) q resp s1 o1 HI (In_fst _ _ _ Hin) HV E) in H.
    pose proof (nb_reach_step av p ideal nadir s0 s (map fst qs) q resp s1 o1 IH (In_fst _ _ _ Hin) HV E) as G.
    destruct o1 as [q1|e1]; [|injection H as <- <-; exact G]. destruct (unplottable (bs_phase s) q1); injection H as <- <-; [exact IH|exact G].
  Qed.
  Lemma reach_inv start x0 s0 s qs : nb_init av p ideal nadir start x0 = Ok s0 ->
    nb_reach_p av p names mult ideal nadir s0 s qs -> inv p s (map fst qs).
  Proof. intros H0 H. eapply inv_reach; eauto. eapply reach_p_reach; eauto. Qed.

  Lemma step_full start x0 s0 s qs q pl resp s1 out : nb_init av p ideal nadir start x0 = Ok s0 ->
    nb_reach_p av p names mult ideal nadir s0 s qs -> In (q, pl) qs ->
    (forall d, resp = Some d -> nb_validate p ideal nadir q d = Ok tt) ->
    iter q resp s = (s1, out) ->
    iter_p q resp s = match out with
                      | Raise e => (s1, Raise e)
                      | Ok q' => if unplottable (bs_phase s) q' then (s, Raise ValueErr) else (s1, Ok (q', plot_of (bs_phase s) q'))
                      end.
  Proof. intros H0 H Hin HV E. eapply step_p; eauto using In_fst. eapply reach_inv; eauto. Qed.

  (** what an unplottable request comes from *)
  Lemma unplottable_from s qs q resp s1 q' : inv p s qs -> In q qs -> iter q resp s = (s1, Ok q') -> unplottable (bs_phase s) q' = true ->
    bs_phase s = PIntermediate /\ q = QInter [] [] /\ q' = QPref [] [].
  Proof.
    intros (_ & _ & I3) Hin H U. unfold unplottable in U. destruct (bs_phase s) eqn:Ep; try discriminate. destruct q' as [| | |sols' objs'|]; try discriminate.
    destruct objs'; [|discriminate]. split; auto.
    assert (Hg : good p q) by (rewrite Forall_forall in I3; auto).
    destruct q as [| |sols objs| |]; try (rewrite iter_wrong in H by (rewrite Ep; (discriminate || intros [])); discriminate).
    apply iter_inter in H; auto. destruct H as [(e & _ & E & _)|(d & q & _ & _ & E & [(a & b & -> & _)|(-> & _)])]; try discriminate.
    injection E as -> <-. cbn in Hg. inversion Hg. subst. auto.
  Qed.

  Lemma others_nil {A} (l : list A) : others l [] = l.
  Proof. unfold others. generalize 0. induction l as [|a l IH]; intros n; cbn; [reflexivity|]. rewrite IH. reflexivity. Qed.
  Lemma inter_nonempty start x0 s0 s qs : nb_init av p ideal nadir start x0 = Ok s0 ->
    nb_reach_p av p names mult ideal nadir s0 s qs -> (forall pl, ~ In (QSave [] [], pl) qs) ->
    forall sols objs pl, In (QInter sols objs, pl) qs -> objs <> [].
  Proof.
    intros H0. induction 1 as [|s qs q pl resp s' out HR IH Hin HV H]; intros NE sols objs pl' Hi.
    { destruct Hi as [Hi|[]]. discriminate. }
    assert (NE' : forall pl, ~ In (QSave [] [], pl) qs) by (intros pl0 G; apply (NE pl0); destruct out; [right|]; exact G).
    destruct out as [[q' pl2]|e]; [|eapply IH; eauto]. destruct Hi as [Hi|Hi]; [|eapply IH; eauto].
    injection Hi as -> ->. pose proof (reach_inv _ _ _ _ _ H0 HR) as HI. destruct (iter q resp s) as [s1 o1] eqn:E.
    rewrite (step_p s (map fst qs) q resp s1 o1 HI (In_fst _ _ _ Hin) HV E) in H.
    destruct o1 as [q1|e1]; [|discriminate]. destruct (unplottable (bs_phase s) q1); [discriminate|]. injection H as _ Eq1 _. subst q1.
    destruct HI as (I1 & I2 & I3). assert (Hg : good p q) by (rewrite Forall_forall in I3; apply I3; eapply In_fst; eauto).
    destruct (bs_phase s) eqn:Ep.
    - destruct q as [f| | | |]; try (rewrite iter_wrong in E by (rewrite Ep; (discriminate || intros [])); discriminate).
      apply iter_cls in E; auto. destruct E as [(e & _ & E)|(d & q & _ & Hh & _ & E)]; [discriminate|].
      apply handle_cls_shape in Hh as (a & b & -> & _). discriminate.
    - destruct q as [|so ob| | |]; try (rewrite iter_wrong in E by (rewrite Ep; (discriminate || intros [])); discriminate).
      apply iter_save in E; auto. destruct E as [(_ & _ & E)|(d & ix & fs & fo & -> & Hix & Rs & Ro & _ & E)]; [discriminate|].
      injection E as _ ->. intros En. apply app_eq_nil in En as [En Eo]. apply app_eq_nil in En as [_ En]. subst fo.
      inversion Ro; subst. rewrite others_nil in Eo. subst ob. cbn in Hg. inversion Hg; subst. eapply NE'; eauto.
    - destruct q as [| |so ob| |]; try (rewrite iter_wrong in E by (rewrite Ep; (discriminate || intros [])); discriminate).
      apply iter_inter in E; auto. destruct E as [(e & _ & E & _)|(d & q & _ & _ & E & [(a & b & -> & _)|(-> & _)])]; discriminate.
    - destruct q as [| | |so ob|]; try (rewrite iter_wrong in E by (rewrite Ep; (discriminate || intros [])); discriminate).
      apply iter_pref in E; auto. destruct E as [(_ & _ & E)|(d & z & b & x & f & _ & _ & _ & _ & _ & _ & _ & E)]; [discriminate|]. destruct b; discriminate.
    - rewrite iter_end in E by auto. injection E as _ Eq. subst q. eapply IH; eauto.
  Qed.

  (** an empty save request answers a number of desired solutions between 0 and 1 *)
  Lemma rseq_len {A} (l : list (res A)) v : rseq l = Ok v -> length v = length l.
  Proof.
    revert v. induction l as [|a l IH]; cbn; intros v H; [injection H as <-; reflexivity|].
    apply rbind_ok in H as (x & _ & H). apply rbind_ok in H as (y & Hy & H). injection H as <-. cbn. f_equal. apply IH. exact Hy.
  Qed.
  Lemma new_nonempty s n lv a b c d e sols objs : nb_new_solutions av p ideal nadir s n lv a b c d e = Ok (QSave sols objs) -> objs <> [].
  Proof. unfold nb_new_solutions. intros H. apply rbind_ok in H as (r1 & H1 & H). apply rbind_ok in H as (rs & H2 & H). injection H as _ <-. discriminate. Qed.
  Lemma empty_save s q resp s1 sols : bs_phase s <> PEnd -> good p q -> (forall d, resp = Some d -> nb_validate p ideal nadir q d = Ok tt) ->
    iter q resp s = (s1, Ok (QSave sols [])) ->
    exists so ob d v ix, q = QInter so ob /\ resp = Some d /\ bd_indices d = Some ix /\ ix <> [] /\ bd_ndes d = Some v /\ exists n, py_toint v = Ok n /\ (n <= 0)%Z.
  Proof.
    intros Ne Hg HV E. destruct (bs_phase s) eqn:Ep; [| | | |congruence].
    - destruct q as [f| | | |]; try (rewrite iter_wrong in E by (rewrite Ep; (discriminate || intros [])); discriminate).
      apply iter_cls in E; auto. destruct E as [(e & _ & E)|(d & q & _ & Hh & _ & E)]; [discriminate|]. injection E as <-.
      unfold nb_handle_cls in Hh. apply rbind_ok in Hh as (cl & _ & H). apply rbind_ok in H as (nv & _ & H).
      apply rbind_ok in H as (n & _ & H). apply rbind_ok in H as (lv & _ & H). exfalso. exact (new_nonempty _ _ _ _ _ _ _ _ _ _ H eq_refl).
    - destruct q as [|so ob| | |]; try (rewrite iter_wrong in E by (rewrite Ep; (discriminate || intros [])); discriminate).
      apply iter_save in E; auto. destruct E as [(_ & _ & E)|(d & ix & fs & fo & -> & Hix & Rs & Ro & _ & E)]; discriminate.
    - destruct q as [| |so ob| |]; try (rewrite iter_wrong in E by (rewrite Ep; (discriminate || intros [])); discriminate).
      apply iter_inter in E; auto. destruct E as [(e & _ & E & _)|(d & q & -> & Hh & E & _)]; [discriminate|]. injection E as <-.
      unfold nb_handle_inter in Hh. apply rbind_ok in Hh as (ix & Hix & Hh). destruct (Nat.ltb_spec 0 (length ix)) as [Hl|]; [|discriminate].
      apply rbind_ok in Hh as (sel & _ & Hh). apply rbind_ok in Hh as (v & Hv & Hh). apply rbind_ok in Hh as (n & Hn & Hh).
      unfold nb_intermediate in Hh. apply rbind_ok in Hh as (a0 & _ & Hh). apply rbind_ok in Hh as (a1 & _ & Hh).
      apply rbind_ok in Hh as (pts & Hp & Hh). apply rbind_ok in Hh as (rs & Hr & Hh). injection Hh as _ Hh. apply map_eq_nil in Hh. subst rs.
      apply rseq_len in Hr. rewrite map_length in Hr. destruct pts; [|discriminate].
      unfold nb_between in Hp. apply rbind_ok in Hp as (b & _ & Hp). apply rseq_len in Hp. rewrite map_length, seq_length in Hp. cbn in Hp.
      exists so, ob, d, v, ix. unfold key in Hix, Hv. destruct (bd_indices d); [|discriminate]. destruct (bd_ndes d); [|discriminate].
      injection Hix as ->. injection Hv as ->. repeat split; auto; [intros ->; cbn in Hl; lia|]. exists n. split; [exact Hn|lia].
    - destruct q as [| | |so ob|]; try (rewrite iter_wrong in E by (rewrite Ep; (discriminate || intros [])); discriminate).
      apply iter_pref in E; auto. destruct E as [(_ & _ & E)|(d & z & b & x & f & _ & _ & _ & _ & _ & _ & _ & E)]; [discriminate|]. destruct b; discriminate.
  Qed.

  (** every accepted answer to an empty intermediate request is the empty one *)
  Lemma validate_inter_nil (d : nb_dict N) : nb_validate_inter [] d = Ok tt -> bd_indices d = Some [].
  Proof.
    unfold nb_validate_inter. destruct (bd_indices d) as [ix|]; [|discriminate]. destruct (bd_ndes d) as [nd|]; [|discriminate].
    intros H. apply rbind_ok in H as (lt & _ & H). destruct lt; [discriminate|].
    destruct (Nat.ltb 0 (length ix) && py_eq nd 0); [discriminate|]. apply rbind_ok in H as (gt & _ & H). destruct gt; [discriminate|].
    destruct ix as [|z ix]; [reflexivity|]. cbn [length Nat.eqb] in H. change (Z.of_nat 0) with 0%Z in H.
    destruct ((0 <=? zmax (z :: ix))%Z || (zmin (z :: ix) <? 0)%Z) eqn:Ec; [discriminate|].
    apply (zrange (z :: ix) 0) in Ec; [|discriminate]. inversion Ec. lia.
  Qed.
  Lemma validate_inter_float objs (d : nb_dict N) ix v n : nb_validate_inter objs d = Ok tt -> bd_indices d = Some ix -> ix <> [] -> bd_ndes d = Some v ->
    py_toint v = Ok n -> (n <= 0)%Z -> exists x, v = VFloat x (Some n).
  Proof.
    unfold nb_validate_inter. intros H Ei Ne Ev En Hn. rewrite Ei, Ev in H. apply rbind_ok in H as (lt & Hlt & H). destruct lt; [discriminate|].
    assert (L : Nat.ltb 0 (length ix) = true) by (apply Nat.ltb_lt; destruct ix; [congruence|cbn; lia]). rewrite L in H. cbn [andb] in H.
    destruct (py_eq v 0) eqn:Ee; [discriminate|]. unfold py_toint in En.
    destruct v as [|b|z|x t|o|]; cbn in *; try discriminate.
    - destruct b; cbn in *; [injection En as <-; lia|discriminate].
    - injection En as <-. injection Hlt as Hlt. apply Z.ltb_ge in Hlt. apply Z.eqb_neq in Ee. lia.
    - destruct t as [t|]; [|discriminate]. injection En as <-. eauto.
  Qed.

  (** ** Sessions that follow a list of answers *)
  Fixpoint play_p (ds : list (nb_dict N)) (s : nb_state N) (q : nb_request N) (qs : list (nb_request N * option (nb_plot N)))
    : option (nb_state N * nb_request N * list (nb_request N * option (nb_plot N))) :=
    match ds with
    | [] => Some (s, q, qs)
    | d :: ds' =>
        match nb_validate p ideal nadir q d with
        | Ok _ => match iter_p q (Some d) s with
                  | (s', Ok q') => play_p ds' s' (fst q') (q' :: qs)
                  | _ => None
                  end
        | _ => None
        end
    end.
  Definition shown_p (q : nb_request N) (qs : list (nb_request N * option (nb_plot N))) : Prop := exists pl, In (q, pl) qs.
  Lemma play_p_reach s0 ds : forall s q qs r, nb_reach_p av p names mult ideal nadir s0 s qs -> shown_p q qs -> play_p ds s q qs = Some r ->
    nb_reach_p av p names mult ideal nadir s0 (fst (fst r)) (snd r) /\ shown_p (snd (fst r)) (snd r).
  Proof.
    induction ds as [|d ds IH]; intros s q qs r HR (pl & Hin) H; cbn [play_p] in H.
    - injection H as <-. split; [exact HR|exists pl; exact Hin].
    - destruct (nb_validate p ideal nadir q d) as [[]|] eqn:EV; [|discriminate].
      destruct (iter_p q (Some d) s) as [s' [q'|]] eqn:EI; [|discriminate].
      apply (IH s' (fst q') (q' :: qs) r); [|exists (snd q'); left; destruct q'; reflexivity|exact H].
      apply (nb_reach_p_step av p names mult ideal nadir s0 s qs q pl (Some d) s' (Ok q')); auto. intros d' E. injection E as <-. auto.
  Qed.
  Definition demo_p (start : option vec) (x0 : vec) (ds : list (nb_dict N)) :=
    match nb_init av p ideal nadir start x0 with
    | Ok s0 => play_p ds s0 (nb_request_cls s0) [nb_start_p s0]
    | Raise _ => None
    end.
  Lemma demo_p_reach start x0 ds r : demo_p start x0 ds = Some r ->
    exists s0, nb_init av p ideal nadir start x0 = Ok s0 /\ nb_reach_p av p names mult ideal nadir s0 (fst (fst r)) (snd r) /\ shown_p (snd (fst r)) (snd r).
  Proof.
    unfold demo_p. destruct (nb_init av p ideal nadir start x0) as [s0|] eqn:E; [|discriminate]. intros H. exists s0. split; auto.
    apply (play_p_reach s0 ds s0 (nb_request_cls s0) [nb_start_p s0] r); [constructor|exists None; left; reflexivity|exact H].
  Qed.
End Plots.
