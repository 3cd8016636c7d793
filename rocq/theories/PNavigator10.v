(** * NAUTILUS Navigator: two objectives, any arithmetic. *)
From Coq Require Import ZArith List Bool Lia.
From Verif Require Import Num Py Np Spec NpFacts MNavigator SNavigator SENautilus SNavAny PENautilus
  PNavigator PNavigator2 PNavigator3 PNavigator4 PNavigator5 PNavigator6.
Import ListNotations.

Section Any.
  Context {N : NumOps} (L : OrdLaws N).
  Implicit Types (asf : @asf_fn N) (s : nv_state N) (F : list (list N)).

  Lemma F2len {A B} (R : A -> B -> Prop) (a : list A) (b : list B) : Forall2 R a b -> length a = length b.
  Proof. induction 1; cbn; auto. Qed.

  Lemma none_exceeds (row : list N) (u : list (option N)) : Forall (fun o => o = None) u -> ~ exceeds row (to_floats u).
  Proof.
    intros Hu (r & x & b & Hx & Hb & Hlt). unfold to_floats in Hb. rewrite nth_error_map in Hb.
    destruct (nth_error u r) eqn:E; [|discriminate]. apply nth_error_In in E. rewrite Forall_forall in Hu. rewrite (Hu _ E) in Hb.
    injection Hb as <-. apply (ltb_true L) in Hlt. rewrite (ol_nan_l N L _ _ (ol_nan N L)) in Hlt. destruct Hlt; discriminate.
  Qed.

  Lemma nav_towards (p v : list N) r nav : (1 <= r)%Z -> length p = length v -> nv_nav_point p v r = Ok nav -> nav = towards r v p.
  Proof.
    intros Hr HL H. unfold nv_nav_point in H. rewrite (proj2 (Z.eqb_neq _ _)) in H by lia. unfold vscale in H.
    rewrite bcast2_eq in H by (rewrite !map_length; auto). injection H as <-. unfold towards.
    clear -HL. revert p HL. induction v as [|x v IH]; intros [|y p] HL; try discriminate; auto. cbn [map zipw]. f_equal. apply IH. cbn in HL. lia.
  Qed.

  Record plain_inv asf F ideal nd vars s (c : nv_content N) : Prop := {
    pi_sess : exists ds, nv_session asf F ideal nd vars ds s c;
    pi_idx : forall i row, nth_error F i = Some row -> (In i (idx_list (ns_idx s)) <-> vle row (ns_nav s));
    pi_proj : match ns_proj s with Some p => In p (idx_list (ns_idx s)) | None => s = nv_init F ideal nd vars end;
    pi_bounds : forall row, ~ exceeds row (ns_bounds s);
    pi_ref : forall r0, ns_ref s = Some r0 -> length r0 = length nd }.

  Lemma plain_session_inv asf F ideal nd vars s c :
    setup 2 F ideal nd vars -> enclosed F ideal nd -> mutually_nondominated F ->
    plain_session asf F ideal nd vars s c -> plain_inv asf F ideal nd vars s c.
  Proof.
    intros Hs He Hm H. assert (Hnd : length nd = 2) by apply Hs.
    induction H as [c Hc|s c d s' c' H IH Hv (Hfwd & Hbd & ref0 & Er0 & Hrl & Hpr) Hst Hit].
    - constructor; cbn.
      + exists []. constructor. auto.
      + intros i row Hi. destruct He as [He _]. rewrite Forall_forall in He. split.
        * intros _. apply He. eapply nth_error_In; eauto.
        * intros _. apply in_seq. assert (X : nth_error F i <> None) by (rewrite Hi; discriminate). apply nth_error_Some in X. lia.
      + reflexivity.
      + intros row. intros (r & x & b & _ & Hb & Hlt). rewrite nth_error_map in Hb.
        destruct (nth_error ideal r); [|discriminate]. injection Hb as <-.
        apply (ltb_true L) in Hlt. rewrite (ol_nan_l N L _ _ (ol_nan N L)) in Hlt. destruct Hlt; discriminate.
      + discriminate.
    - destruct IH as [(ds & H0) IH1 IH2 IH3 IH4].
      destruct (session_reach L _ _ _ _ _ _ _ _ _ Hs H0) as (Hq & qs & Hreach & _).
      destruct (boxed_reach L 2 _ _ _ _ _ _ _ (le_n 2) Hs He Hreach) as [Hbox _].
      destruct (session_step L _ _ _ _ _ _ _ _ _ _ _ _ Hs H0 Hfwd Hv Hit) as (G & ref & speed & ub & Eref & _ & Eub & Hl & Hspec).
      assert (ref = ref0) by congruence. subst ref.
      pose proof (g_wf _ _ _ _ _ _ _ G) as W. pose proof (wf_count _ _ W) as Hcnt.
      assert (Hub : Forall (fun o => o = None) ub).
      { rewrite Hbd in Eub. injection Eub as <-. apply Forall_forall. intros o Ho. apply in_map_iff in Ho. destruct Ho as (? & <- & _). reflexivity. }
      assert (Ec : nc_left c = ns_left s /\ nc_nav c = ns_nav s) by (unfold nv_request_of in Hq; injection Hq as <-; auto).
      destruct Ec as [Ec1 Ec2]. rewrite Ec1, Ec2 in Hst.
      rewrite <- (g_front _ _ _ _ _ _ _ G) in Hbox.
      destruct (forward_nested L 2 _ _ _ _ _ _ _ (le_n 2) W Hl Hbox Hspec) as (V1 & V2 & Hincl & Hbox' & rows & Hrows & Hba).
      destruct (boxed_rows 2 _ _ _ _ _ (wf_front _ _ W) Hbox Hrows) as (Hmr & Hbr & Hrow).
      assert (Hx : exists pi p, ns_proj s' = Some pi /\ nth_error F pi = Some p /\ ns_nav s' = towards (ns_left s) (ns_nav s) p /\
                     In pi (idx_list (ns_idx s)) /\ ns_bounds s' = to_floats ub /\ (forall r0, ns_ref s' = Some r0 -> length r0 = length nd)).
      { destruct Hspec as (again & pi & proj & nav & rows' & lb & ub' & dist & idx & Hr & Hp & Hpj & Hnav & _ & _ & _ & _ & -> & _).
        exists pi, proj. cbn. rewrite (g_front _ _ _ _ _ _ _ G) in Hpj. split; auto. split; auto. split; [|split; [|split; auto]].
        - apply nav_towards; auto; [lia|]. rewrite (wf_nav _ _ W). destruct Hs as (Hm' & _). unfold is_matrix in Hm'. rewrite Forall_forall in Hm'.
          apply Hm'. eapply nth_error_In; eauto.
        - destruct again.
          + rewrite <- (g_front _ _ _ _ _ _ _ G), <- (g_ideal _ _ _ _ _ _ _ G), <- (g_nadir _ _ _ _ _ _ _ G) in Hpr.
            destruct (projection_best L 2 asf s ref0 pi W Hpr Hp) as [[A _] _]. auto.
          + rewrite Hp in IH2. auto.
        - intros r0 E. destruct again; [|auto]. injection E as <-. auto. }
      destruct Hx as (pi & p & Epi & Ep & Enav & Hpreach & Ebd & Eref').
      assert (HpF : In p F) by (eapply nth_error_In; eauto).
      assert (Hpv : vle p (ns_nav s)) by (apply (IH1 pi p Ep); auto).
      destruct (Hst p HpF Hpv) as [Hb1 Hb2]. rewrite <- Enav in Hb1, Hb2.
      assert (Hprow : In p rows).
      { apply take_ok in Hrows. destruct (Forall2_In_l _ _ _ _ Hrows Hpreach) as [row' [Hin' Hn']].
        rewrite (g_front _ _ _ _ _ _ _ G), Ep in Hn'. injection Hn' as <-. auto. }
      assert (X1 : nan_free (ns_nav s')).
      { clear -Hb1 L. induction Hb1 as [|x y l l' Hxy Hb IH]; constructor; auto. apply (leb_notnan_r L) in Hxy. auto. }
      assert (X2 : length (ns_nav s') = 2) by (rewrite (F2len _ _ _ Hb2); apply (wf_nav _ _ W)).
      pose proof (two_box L (ns_front s) rows (ns_nav s') (to_floats ub) (ns_lb s) (ns_ub s) (ns_lb s') (ns_ub s') (wf_front _ _ W)) as TB.
      rewrite (g_front _ _ _ _ _ _ _ G) in TB at 1. specialize (TB Hm Hbr Hrow X1 X2 (wf_lb _ _ W) (wf_ub _ _ W) Hl (proj1 (proj2 Hbox)) (proj2 (proj2 Hbox)) Hba).
      assert (X3 : exists row, In row rows /\ ~ exceeds row (to_floats ub) /\ vle row (ns_nav s')).
      { exists p. split; auto. split; auto. apply none_exceeds; auto. }
      specialize (TB X3).
      assert (Efr : ns_front s' = F) by (destruct (forward_spec_const _ _ _ _ _ _ _ Hspec) as (E & _); rewrite E; apply G).
      assert (Main : forall i row, nth_error F i = Some row -> (In i (idx_list (ns_idx s')) <-> vle row (ns_nav s'))).
      { intros i row Hi. destruct Hbox' as (Hbi & _). rewrite Hbi, box_idx_spec, Efr.
        assert (Hin : In row (ns_front s)) by (rewrite (g_front _ _ _ _ _ _ _ G); eapply nth_error_In; eauto).
        specialize (TB row Hin). split.
        - intros (row' & A & B). assert (row' = row) by congruence. subst row'. apply TB in B. tauto.
        - intros A. exists row. split; auto. apply TB. split; [|split; auto; apply none_exceeds; auto].
          assert (Hi' : In i (idx_list (ns_idx s))) by (apply (IH1 i row Hi); eapply (vle_trans L); [exact A|exact Hb2]).
          apply take_ok in Hrows. destruct (Forall2_In_l _ _ _ _ Hrows Hi') as [row' [Hin' Hn']].
          rewrite (g_front _ _ _ _ _ _ _ G) in Hn'. congruence. }
      constructor; auto.
      + exists (ds ++ [d]). econstructor; eauto.
      + rewrite Epi. apply (Main pi p Ep). auto.
      + intros row. rewrite Ebd. apply none_exceeds; auto.
  Qed.

  Lemma allclose_total (a b : list N) : length a = length b -> exists r, allclose a b = Ok r.
  Proof. intros H. unfold allclose. rewrite bcast2_eq by auto. cbn. eauto. Qed.

  Lemma plain_never_fails asf F ideal nd vars s c d :
    setup 2 F ideal nd vars -> F <> [] -> enclosed F ideal nd -> mutually_nondominated F ->
    plain_session asf F ideal nd vars s c -> nv_validate c d = Ok tt -> plain_answer asf F ideal nd d ->
    exists s' c', nv_iterate asf (NReq c) (Some d) s = (s', Ok (NReq c')).
  Proof.
    intros Hs Hne He Hm H Hv (Hfwd & Hbd & ref & Er & Hrl & Hpr).
    destruct (plain_session_inv _ _ _ _ _ _ _ Hs He Hm H) as [(ds & H0) I1 I2 I3 I4].
    destruct (session_reach L _ _ _ _ _ _ _ _ _ Hs H0) as (Hq & qs & Hreach & Hin).
    pose proof (ginv_reach L _ _ _ _ _ _ _ _ Hs Hreach) as G. pose proof (g_wf _ _ _ _ _ _ _ G) as W.
    eapply (forward_succeeds L 2); eauto.
    - assert (Ex : exists i, In i (idx_list (ns_idx s))).
      { destruct (ns_proj s) as [p|] eqn:E; [eauto|]. subst s. cbn. destruct F; [congruence|]. exists 0. cbn. auto. }
      destruct Ex as [i Hi]. exists i. split; auto.
      pose proof (wf_idx _ _ W) as Hw. rewrite Forall_forall in Hw. specialize (Hw i Hi). rewrite (g_front _ _ _ _ _ _ _ G) in Hw.
      destruct (nth_error F i) as [row|] eqn:E; [eauto|]. apply nth_error_None in E. lia.
    - intros r0 E. apply allclose_total. rewrite (I4 r0 E). auto.
  Qed.
End Any.
