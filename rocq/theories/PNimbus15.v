(** * NIMBUS with plots: sessions compared (C110). *)
From Coq Require Import ZArith String List Bool Lia.
From Verif Require Import Num Py Np Spec NpFacts MNimbus SNimbus PNimbus PNimbus2 PNimbus4 MNimbusPlot SNimbusPlot PNimbusPlot SNimbus4 PNimbus14.
Import ListNotations.

Section P.
  Context {N : NumOps}.
  Variables (av : @asf_val N) (p : nb_problem N) (names : list string) (mult ideal nadir : list N).
  Hypothesis HW : plot_wf p names mult ideal nadir.
  Notation play := (nb_play av p ideal nadir).
  Notation playp := (nb_play_p av p names mult ideal nadir).

  Lemma play_p_plain tr ds : forall q s qs, inv p s qs -> In q qs -> q <> QInter [] [] ->
    (~ In (Ok (QInter [] [])) (playp tr q ds s) \/ ~ In (Ok (QInter [] [])) (play tr q ds s)) -> playp tr q ds s = play tr q ds s.
  Proof.
    induction ds as [|d ds IH]; intros q s qs HI Hq Hn HE; [reflexivity|]. cbn [nb_play nb_play_p] in *.
    destruct (nb_validate p ideal nadir q (tr q d)) as [[]|x] eqn:Ev.
    2:{ f_equal. apply (IH q s qs); auto. destruct HE as [HE|HE]; [left|right]; intros G; apply HE; right; exact G. }
    assert (HV : forall d0, Some (tr q d) = Some d0 -> nb_validate p ideal nadir q d0 = Ok tt) by (intros d0 E0; injection E0 as <-; exact Ev).
    destruct (nb_iterate av p ideal nadir q (Some (tr q d)) s) as [s' out] eqn:E.
    rewrite (step_p av p names mult ideal nadir HW s qs q _ s' out HI Hq HV E) in *.
    destruct (inv_step av p ideal nadir _ _ _ _ _ _ HI Hq HV E) as (HI' & _ & _).
    destruct out as [q'|x].
    - destruct (unplottable (bs_phase s) q') eqn:U.
      { exfalso. destruct (unplottable_from av p ideal nadir _ _ _ _ _ _ HI Hq E U) as (_ & A & _). exact (Hn A). }
      cbn [rmap fst] in *. f_equal. apply (IH q' s' (q' :: qs)); auto; [left; reflexivity| |].
      + intros ->. destruct HE as [HE|HE]; apply HE; left; reflexivity.
      + destruct HE as [HE|HE]; [left|right]; intros G; apply HE; right; exact G.
    - cbn [rmap] in *. f_equal. apply (IH q s' qs); auto. destruct HE as [HE|HE]; [left|right]; intros G; apply HE; right; exact G.
  Qed.

  Lemma listed_not_empty (PS PF : list (list N)) q : listing_first PS PF q = QInter [] [] -> q = QInter [] [].
  Proof.
    destruct q as [f|a b|a b|a b|x f]; cbn [listing_first]; intros H; try discriminate H. assert (HA := f_equal (fun q => match q with QInter a _ => a | _ => a end) H). assert (HB := f_equal (fun q => match q with QInter _ b => b | _ => b end) H).
    cbn in HA, HB. apply app_eq_nil in HA. apply app_eq_nil in HB. destruct HA as [_ ->], HB as [_ ->]. reflexivity.
  Qed.
  Lemma play_p_same start x0 s0 s qs ds : nb_init av p ideal nadir start x0 = Ok s0 -> nb_reach_p av p names mult ideal nadir s0 s qs ->
    let fresh := playp as_given (nb_request_cls s) ds (emptied s) in
    ~ In (Ok (QInter [] [])) fresh ->
    playp (further_in (length (bs_aobjs s))) (nb_request_cls s) ds s = map (rmap (listing_first (bs_asols s) (bs_aobjs s))) fresh.
  Proof.
    intros H0 HR fresh HE. destruct (reach_inv av p names mult ideal nadir HW _ _ _ _ _ H0 HR) as (I1 & I2 & _).
    set (q := nb_request_cls s). assert (Gq : good p q) by (exists (bs_sol s); exact I1).
    assert (IE : inv p (emptied s) [q]) by (split; [exact I1|]; split; [constructor|]; constructor; [exact Gq|constructor]).
    assert (IS : inv p s [q]) by (split; [exact I1|]; split; [exact I2|]; constructor; [exact Gq|constructor]).
    assert (Nq : q <> QInter [] []) by discriminate.
    assert (EF : fresh = play as_given q ds (emptied s)) by (apply (play_p_plain as_given ds q (emptied s) [q]); auto; left; reflexivity).
    pose proof (play_same av p ideal nadir (bs_asols s) (bs_aobjs s) (Forall2_len _ _ _ I2) ds q (emptied s)) as HS.
    assert (Efr : front (bs_asols s) (bs_aobjs s) (emptied s) = s) by (destruct s; unfold front, emptied; cbn; rewrite !app_nil_r; reflexivity).
    rewrite Efr in HS. change (listing_first (bs_asols s) (bs_aobjs s) q) with q in HS.
    rewrite EF, <- HS. apply (play_p_plain _ ds q s [q]); auto; [left; reflexivity|]. right. intros G. rewrite HS in G. apply in_map_iff in G. destruct G as (r & G1 & G2).
    destruct r as [r|]; [|discriminate]. cbn [rmap] in G1. injection G1 as G1. apply HE. rewrite EF. apply listed_not_empty in G1. subst r. exact G2.
  Qed.

  (** without plots: no exception *)
  Lemma play_plain_same start x0 s0 s qs ds : nb_init av p ideal nadir start x0 = Ok s0 -> nb_reach av p ideal nadir s0 s qs ->
    play (further_in (length (bs_aobjs s))) (nb_request_cls s) ds s = map (rmap (listing_first (bs_asols s) (bs_aobjs s))) (play as_given (nb_request_cls s) ds (emptied s)).
  Proof.
    intros H0 HR. destruct (inv_reach _ _ _ _ _ _ _ _ _ H0 HR) as (I1 & I2 & _).
    pose proof (play_same av p ideal nadir (bs_asols s) (bs_aobjs s) (Forall2_len _ _ _ I2) ds (nb_request_cls s) (emptied s)) as HS.
    assert (Efr : front (bs_asols s) (bs_aobjs s) (emptied s) = s) by (destruct s; unfold front, emptied; cbn; rewrite !app_nil_r; reflexivity).
    rewrite Efr in HS. exact HS.
  Qed.
End P.
