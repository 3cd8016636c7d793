(** * NIMBUS: which solutions a classification yields. *)
From Coq Require Import ZArith List Bool Lia.
From Verif Require Import Num Py Np Spec NpFacts MNimbus SNimbus PNimbus PNimbus2 PNimbus3.
Import ListNotations.

Section New2.
  Context {N : NumOps} (L : OrdLaws N).
  Notation vec := (list N).
  Notation mat := (list (list N)).
  Variable fin : N -> Prop.
  Hypothesis Hsub : forall x y, fin x -> fin y -> nleb (nofZ 0) (nsub y x) = nleb x y.
  Variables (av : @asf_val N) (p : nb_problem N) (ideal nadir : vec).
  Hypothesis HN : nan_rows av.
  Hypothesis HW : nb_wf fin p ideal nadir.

  Lemma where_lt c cl i : In i (where_cls c cl) -> i < length cl.
  Proof. intros H. apply where_cls_in in H. apply nth_error_Some. congruence. Qed.
  Lemma take_where {A} (m : list A) c cl : length m = length cl -> exists v, take m (where_cls c cl) = Ok v.
  Proof. intros H. apply take_lt. apply Forall_forall. intros i Hi. apply where_lt in Hi. lia. Qed.
  Lemma cons_row_total cl (cur lv f : vec) : length cur = length cl -> length lv = length cl -> length f = length cl ->
    exists r, cons_row cur lv (where_cls CImprove cl) (where_cls CImproveUntil cl) (where_cls CAccept cl) (where_cls CImpairUntil cl) f = Ok r.
  Proof.
    intros H1 H2 H3. unfold cons_row.
    repeat match goal with |- context [take ?m (where_cls ?c cl)] => let E := fresh in destruct (take_where m c cl) as (? & E); [assumption|rewrite E; clear E; cbn [rbind]] end.
    eauto.
  Qed.
  Lemma forallb_Forall (v : vec) : forallb (fun t => nleb (nofZ 0) t) v = true <-> Forall (fun t => nleb (nofZ 0) t = true) v.
  Proof. apply forallb_forall_Forall || (rewrite forallb_forall, Forall_forall; reflexivity). Qed.

  Lemma obj_wf x f : matches p x f -> length f = p_nobj p /\ Forall fin f.
  Proof.
    destruct HW as (_ & _ & _ & W). destruct p as [k ev co mi|k objs decs cl]; cbn.
    - intros ->. apply W.
    - intros (i & _ & Hf). apply nth_error_In in Hf. destruct W as (W1 & W2 & _). unfold is_matrix in W1. rewrite Forall_forall in W1, W2. auto.
  Qed.

  Section Cls.
    Variables (s : nb_state N) (cl : list cls) (lv : vec).
    Hypothesis Hm : matches p (bs_sol s) (bs_obj s).
    Hypothesis Hcl : length cl = p_nobj p.
    Hypothesis Hlv : length lv = p_nobj p.
    Hypothesis Flv : Forall fin lv.

    (** the constraint functions of the continuous case *)
    Lemma cmo1_means ev co : (forall x, length (ev x) = p_nobj p /\ Forall fin (ev x)) ->
      constraint_means (Some (cons_mo ev co (bs_obj s) lv (where_cls CImprove cl) (where_cls CImproveUntil cl) (where_cls CAccept cl) (where_cls CImpairUntil cl)))
        (fun y => own_feasible co y /\ (0 = 0 -> honours cl (bs_obj s) lv (ev y))).
    Proof.
      intros W y. destruct (W y) as [W1 W2]. destruct (obj_wf _ _ Hm) as [O1 O2].
      destruct (cons_row_total cl (bs_obj s) lv (ev y)) as (r & Hr); try congruence.
      unfold cons_mo. rewrite Hr. cbn [rbind]. eexists. split; [reflexivity|].
      pose proof (cons_row_iff fin Hsub cl _ _ _ _ O2 Flv W2 Hr) as E. rewrite forallb_Forall in E.
      destruct co; cbn [own_feasible]; [rewrite Forall_app|]; rewrite E; tauto.
    Qed.
    Lemma cons_disc_spec k objs decs fc m : p = PDisc k objs decs fc ->
      cons_disc (bs_obj s) lv (where_cls CImprove cl) (where_cls CImproveUntil cl) (where_cls CAccept cl) (where_cls CImpairUntil cl) objs = Ok m ->
      Forall2 (fun f b => b = true <-> honours cl (bs_obj s) lv f) objs m.
    Proof.
      intros Ep H. destruct (obj_wf _ _ Hm) as [O1 O2]. pose proof HW as HW'. rewrite Ep in HW'. destruct HW' as (_ & _ & _ & _ & W2 & _).
      unfold cons_disc in H. apply rseq_map_ok in H. clear Ep. revert W2. induction H as [|f b fs bs Hb H IH]; intros W2; constructor.
      - apply rmap_ok in Hb as (r & Hr & ->). inversion W2; subst. eapply cons_row_iff; eauto.
      - apply IH. inversion W2; auto.
    Qed.

    Lemma solve1 r : 
      nb_solve av p (bs_sol s) (AMaxOfTwo nadir ideal (where_cls CImprove cl) (where_cls CImproveUntil cl)) lv
        (match p with PMO _ ev co _ => Some (cons_mo ev co (bs_obj s) lv (where_cls CImprove cl) (where_cls CImproveUntil cl) (where_cls CAccept cl) (where_cls CImpairUntil cl)) | _ => None end)
        (Some (cons_disc (bs_obj s) lv (where_cls CImprove cl) (where_cls CImproveUntil cl) (where_cls CAccept cl) (where_cls CImpairUntil cl))) = Ok r ->
      forall z, produced av p ideal nadir (bs_sol s) (bs_obj s) cl lv z 0 (fst r) (snd r).
    Proof.
      intros H z. pose proof HW as HW'. destruct HW' as (K & _ & _ & W). unfold nb_solve in H. unfold produced. destruct p as [k ev co mi|k objs decs fc] eqn:Ep.
      - apply rbind_ok in H as ([x ok] & Hx & H). injection H as <-. cbn [fst snd]. split; auto.
        eexists _, ok. split; [exact Hx|]. rewrite <- Ep in *. apply cmo1_means. rewrite Ep. exact W.
      - apply rbind_ok in H as (i & Hi & H). apply rbind_ok in H as (x & Hx & H). apply rbind_ok in H as (f & Hf & H). injection H as <-. cbn [fst snd].
        apply at_ok in Hx, Hf. pose proof Hi as Hi'. unfold disc_minimize in Hi'. apply rbind_ok in Hi' as (rows & Hrows & _). apply rbind_ok in Hrows as (m & Hmm & _).
        rewrite <- Ep in *. pose proof (cons_disc_spec _ _ _ _ _ Ep Hmm) as HS.
        assert (HE : Forall (fun r : vec => r <> []) objs).
        { destruct W as (W1 & _). eapply Forall_impl; [|exact W1]. cbn. intros r Hr ->. cbn in Hr. rewrite Ep in K. cbn in K. lia. }
        assert (HL : length m = length objs) by (symmetry; eapply F2len; eauto).
        destruct (disc_cons L _ _ _ _ _ _ _ HN HE Hmm HL Hi) as (f' & v & Hf' & Hmi & Hav & Hn & Hmin).
        { assert (f' = f) by congruence. subst f'. exists i, v. repeat split; auto.
          * intros _. destruct (Forall2_nth _ _ _ _ _ HS Hmi) as (f' & Hf'' & E). assert (f' = f) by congruence. subst. apply E. auto.
          * intros j g w Hg Hh Hw Hnw. apply (Hmin j g); auto. destruct (PNimbus.Forall2_nth_l _ _ _ _ _ HS Hg) as (b & Hb & E). rewrite Hb. f_equal. apply E. auto. }
    Qed.

    Lemma solve2 z j r : 0 < j ->
      nb_solve av p (bs_sol s) (scalarization ideal nadir cl j) z
        (match p with PMO _ _ co _ => option_map (fun c => fun x => Ok (c x)) co | _ => None end) None = Ok r ->
      produced av p ideal nadir (bs_sol s) (bs_obj s) cl lv z j (fst r) (snd r).
    Proof.
      intros Hj H. unfold nb_solve in H. unfold produced. destruct p as [k ev co mi|k objs decs fc] eqn:Ep.
      - apply rbind_ok in H as ([x ok] & Hx & H). injection H as <-. cbn [fst snd]. split; auto.
        exists (option_map (fun c => fun x => Ok (c x)) co), ok. split; [destruct j; [lia|exact Hx]|].
        destruct co as [c|]; cbn.
        + intros y. eexists. split; [reflexivity|]. split; [intros; split; [auto|lia]|tauto].
        + intros y. split; [exact I|lia].
      - apply rbind_ok in H as (i & Hi & H). apply rbind_ok in H as (x & Hx & H). apply rbind_ok in H as (f & Hf & H). injection H as <-. cbn [fst snd].
        apply at_ok in Hx, Hf. destruct (disc_free L _ _ _ _ _ Hi) as (f' & v & Hf' & Hav & Hn & Hmin).
        assert (f' = f) by congruence. subst f'. destruct j; [lia|]. exists i, v. repeat split; auto; [intros; lia|].
        intros j' g w Hg _ Hw Hnw. eapply Hmin; eauto.
    Qed.

    Lemma new_solutions_spec m q : (1 <= m <= 4)%Z ->
      nb_new_solutions av p ideal nadir s m lv (where_cls CImprove cl) (where_cls CImproveUntil cl) (where_cls CAccept cl) (where_cls CImpairUntil cl) (where_cls CFree cl) = Ok q ->
      exists sols objs z, q = QSave sols objs /\ length sols = Z.to_nat m /\ length objs = Z.to_nat m /\
        ((1 < m)%Z -> implied_point (p_nobj p) cl ideal nadir (bs_obj s) lv z) /\
        forall j x g, nth_error sols j = Some x -> nth_error objs j = Some g ->
          produced av p ideal nadir (bs_sol s) (bs_obj s) cl lv z j x g.
    Proof.
      intros Hm4. unfold nb_new_solutions. intros H. apply rbind_ok in H as (r1 & H1 & H). apply rbind_ok in H as (rs & H2 & H). injection H as <-.
      pose proof (solve1 _ H1) as P1.
      assert (G : exists z, length rs = Z.to_nat m - 1 /\ ((1 < m)%Z -> implied_point (p_nobj p) cl ideal nadir (bs_obj s) lv z) /\
         forall j r, nth_error rs j = Some r -> produced av p ideal nadir (bs_sol s) (bs_obj s) cl lv z (S j) (fst r) (snd r)).
      { destruct (Z.ltb_spec 1 m) as [M1|M1].
        2:{ injection H2 as <-. exists []. split; [cbn; lia|]. split; [lia|]. intros [|j]; discriminate. }
        apply rbind_ok in H2 as (z & Hz & H2). apply zbar_implied in Hz. exists z.
        apply rbind_ok in H2 as (r2 & Hr2 & H2). apply rbind_ok in H2 as (rs3 & Hr3 & H2). injection H2 as <-.
        pose proof (solve2 z 1 _ (le_n 1) Hr2) as P2.
        destruct (Z.ltb_spec 2 m) as [M2|M2].
        2:{ injection Hr3 as <-. split; [cbn; lia|]. split; auto. intros [|[|j]] r E; try discriminate E. injection E as <-. exact P2. }
        apply rbind_ok in Hr3 as (r3 & Hr3 & H3). apply rbind_ok in H3 as (rs4 & Hr4 & H3). injection H3 as <-.
        pose proof (solve2 z 2 _ (le_S _ _ (le_n 1)) Hr3) as P3.
        destruct (Z.ltb_spec 3 m) as [M3|M3].
        2:{ injection Hr4 as <-. split; [cbn; lia|]. split; auto. intros [|[|[|j]]] r E; try discriminate E; injection E as <-; assumption. }
        apply rbind_ok in Hr4 as (r4 & Hr4 & H4). injection H4 as <-.
        pose proof (solve2 z 3 _ (le_S _ _ (le_S _ _ (le_n 1))) Hr4) as P4.
        split; [cbn; lia|]. split; auto. intros [|[|[|[|j]]]] r E; try discriminate E; injection E as <-; assumption. }
      destruct G as (z & Gl & Gz & GP). exists (map fst (r1 :: rs)), (map snd (r1 :: rs)), z.
      repeat split; auto; try (rewrite map_length; cbn; lia); try (apply Gz; auto).
      intros j x g Hx Hg. rewrite nth_error_map in Hx, Hg. destruct j as [|j].
      - cbn in Hx, Hg. injection Hx as <-. injection Hg as <-. apply P1.
      - cbn in Hx, Hg. destruct (nth_error rs j) as [r|] eqn:E; [|discriminate]. cbn in Hx, Hg. injection Hx as <-. injection Hg as <-. auto.
    Qed.
  End Cls.
End New2.
