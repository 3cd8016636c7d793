(** * NAUTILUS and NAUTILUS 2, the objectives in another order (C118): proofs. *)
From Coq Require Import ZArith Reals Lra List Bool Lia Permutation.
From Verif Require Import Num NumXR Py Np Spec NpFacts XRFacts MAsf MNautilus SNautilus PNavShift SRpmOrder POrder PRpmOrder SNautShift SNautOrder.
Import ListNotations.

Section Ord.
  Context (p : list nat) (k : nat) (HP : Permutation p (seq 0 k)).
  Notation arr := (arranged p).
  Notation DA := (arranged_nt_answer p k).

  (** ** the weights *)
  Lemma weights1_eq : forall (f n u : list XR), length n = length f -> length u = length f ->
    nt1_weights f n u = map (ndiv (nofZ 1)) (zipw nmul f (zipw nsub n u)).
  Proof.
    clear. induction f as [|r f IH]; intros [|n ns] [|u us] H1 H2; cbn in *; auto; try discriminate. rewrite IH by lia. reflexivity.
  Qed.
  Lemma weights1_arr (f n u : list XR) : length f = k -> length n = k -> length u = k ->
    nt1_weights (arr f) (arr n) (arr u) = arr (nt1_weights f n u) /\ length (nt1_weights f n u) = k.
  Proof.
    intros Hf Hn Hu. assert (HZ : length (zipw nsub n u) = k) by (rewrite zipw_length; lia).
    rewrite !weights1_eq by (rewrite ?(arr_len p k HP) by assumption; congruence). split.
    - rewrite (arr_zipw p nsub) by congruence. rewrite (arr_zipw p nmul) by congruence. symmetry. apply arr_map.
    - rewrite map_length, zipw_length, HZ, Hf. apply Nat.min_id.
  Qed.
  Lemma utopian_arr (ideal : list XR) (eps : XR) : map (fun x => nsub x eps) (arr ideal) = arr (map (fun x => nsub x eps) ideal).
  Proof. symmetry. apply arr_map. Qed.
  Lemma weights_arr v m i i' (n u : list XR) : arranged_info p k i i' -> length n = k -> length u = k ->
    same_outcome (fun a b => b = arr a /\ length a = k) (nt_weights v m i n u) (nt_weights (arranged_variant p v) m i' (arr n) (arr u)).
  Proof.
    intros HI Hn Hu. destruct v as [|st fuel]; cbn [nt_weights arranged_variant].
    - unfold nt1_factors. destruct (py_eq m 1).
      + destruct HI as [f Hf _|f Hf _|]; cbn [same_outcome]; auto using weights1_arr.
      + destruct (py_eq m 2); [|exact Logic.I]. destruct HI as [f Hf _|f Hf _|]; cbn [same_outcome]; auto.
        rewrite <- arr_map. apply weights1_arr; auto. rewrite map_length. exact Hf.
    - unfold nt2_factors. destruct (py_eq m 1 || py_eq m 2).
      + destruct HI as [f Hf _|f Hf _|]; cbn [rmap same_outcome]; auto. split; [symmetry; apply arr_map|rewrite map_length; exact Hf].
      + destruct (py_eq m 3); [|exact Logic.I]. destruct HI; exact Logic.I.
  Qed.
  Lemma info_arr d1 d2 : DA d1 d2 -> same_outcome (arranged_info p k) (key (nd_info d1)) (key (nd_info d2)).
  Proof. intros H. pose proof (aa_info _ _ _ _ H) as HI. unfold both in HI. destruct (nd_info d1), (nd_info d2); try contradiction; cbn; auto. Qed.

  (** ** points *)
  Lemma comb_eq (a b : XR) (z f : list XR) : length z = k -> length f = k -> bcast2 nadd (vscale a z) (vscale b f) = Ok (zipw nadd (vscale a z) (vscale b f)).
  Proof. intros Hz Hf. apply bcast2_eq. unfold vscale. rewrite !map_length. congruence. Qed.
  Lemma comb_arr (a b : XR) (z f : list XR) : length z = k -> length f = k ->
    bcast2 nadd (vscale a (arr z)) (vscale b (arr f)) = rmap arr (bcast2 nadd (vscale a z) (vscale b f)).
  Proof.
    intros Hz Hf. rewrite comb_eq by (apply (arr_len p k HP); assumption). rewrite comb_eq by assumption. cbn [rmap]. f_equal. unfold vscale.
    rewrite <- !arr_map. apply arr_zipw. rewrite !map_length. congruence.
  Qed.
  Lemma comb_len (a b : XR) (z f v : list XR) : length z = k -> length f = k -> bcast2 nadd (vscale a z) (vscale b f) = Ok v -> length v = k.
  Proof. intros Hz Hf H. rewrite comb_eq in H by assumption. injection H as <-. rewrite zipw_length. unfold vscale. rewrite !map_length. lia. Qed.
  Lemma dist_arr (z s f : list XR) : length z = k -> length s = k -> length f = k -> nt_dist (arr z) (arr s) (arr f) = nt_dist z s f.
  Proof.
    intros H1 H2 H3. unfold nt_dist. rewrite !(arr_bcast p k HP nsub) by assumption. rewrite !bcast2_eq by congruence. cbn [rbind].
    rewrite !(arr_vnorm p k HP) by (rewrite zipw_length; lia). reflexivity.
  Qed.
  Lemma array_equal_arr (a b : list XR) : length a = k -> length b = k -> array_equal (arr a) (arr b) = array_equal a b.
  Proof.
    intros H1 H2. unfold array_equal. rewrite !(arr_len p k HP) by assumption. rewrite (arr_zipw p neqb) by congruence. rewrite (arr_forallb p k HP) by (rewrite zipw_length; lia).
    rewrite H1, H2. reflexivity.
  Qed.

  Definition om (o : option (list XR)) := option_map arr o.
  Definition ms (s : nt_state XR) : nt_state XR :=
    MkNT (ns_step s) (ns_n s) (ns_left s) (map om (ns_zs s)) (ns_xs s) (map om (ns_fs s)) (ns_ds s) (map om (ns_lb s)) (map om (ns_ub s)).
  Definition lens (l : list (option (list XR))) : Prop := Forall (fun o => forall v, o = Some v -> length v = k) l.
  Record wf (s : nt_state XR) : Prop := MkWf { wf_zs : lens (ns_zs s); wf_fs : lens (ns_fs s) }.

  Definition sm {A B} (P : A -> B -> Prop) (m1 : SE (nt_state XR) A) (m2 : SE (nt_state XR) B) (s : nt_state XR) : Prop :=
    wf (fst (m1 s)) /\ fst (m2 (ms s)) = ms (fst (m1 s)) /\ same_outcome P (snd (m1 s)) (snd (m2 (ms s))).
  Lemma sm_bind {A B C D} (P : A -> B -> Prop) (Q : C -> D -> Prop) m1 m2 (f : A -> SE (nt_state XR) C) (g : B -> SE (nt_state XR) D) s :
    sm P m1 m2 s -> (forall a b s', wf s' -> P a b -> sm Q (f a) (g b) s') -> sm Q (sbind m1 f) (sbind m2 g) s.
  Proof.
    intros (W & E & R) H. unfold sm, sbind. destruct (m1 s) as [s1 r1], (m2 (ms s)) as [s2 r2]. cbn [fst snd] in *. subst s2.
    destruct r1 as [a|e1], r2 as [b|e2]; cbn [same_outcome] in R; try contradiction; cbn [fst snd]; [exact (H a b s1 W R)|]. repeat split; auto; apply W.
  Qed.
  Lemma sm_lift {A B} (P : A -> B -> Prop) r1 r2 s : wf s -> same_outcome P r1 r2 -> sm P (lift r1) (lift r2) s.
  Proof. intros W H. unfold sm, lift. cbn [fst snd]. auto. Qed.
  Lemma sm_get s : wf s -> sm (fun a b => b = ms a /\ a = s) sget sget s.
  Proof. intros W. unfold sm, sget. cbn [fst snd same_outcome]. auto. Qed.
  Lemma sm_mod f g s : wf (f s) -> g (ms s) = ms (f s) -> sm (fun _ _ => True) (smod f) (smod g) s.
  Proof. intros W E. unfold sm, smod. cbn [fst snd same_outcome]. auto. Qed.
  Lemma sm_ret {A B} (P : A -> B -> Prop) a b s : wf s -> P a b -> sm P (sret a) (sret b) s.
  Proof. intros W H. unfold sm, sret. cbn [fst snd same_outcome]. auto. Qed.
  Lemma so_refl {A} (r : res A) : same_outcome eq r r.
  Proof. destruct r; reflexivity. Qed.
  Lemma so_map {A B} (f : A -> B) (P : A -> Prop) (r : res A) (r' : res B) : r' = rmap f r -> (forall a, r = Ok a -> P a) -> same_outcome (fun a b => b = f a /\ P a) r r'.
  Proof. intros -> H. destruct r; cbn; auto. Qed.

  (** Slots. *)
  Lemma slot_same {A} (l : list (option A)) i : same_outcome eq (slot l i) (slot l i).
  Proof. apply so_refl. Qed.
  Lemma slot_arr l i : lens l -> same_outcome (fun a b => b = arr a /\ length a = k) (slot l i) (slot (map om l) i).
  Proof.
    intros H. unfold slot. rewrite at_map. destruct (at_ l i) as [o|e] eqn:E; [|reflexivity]. cbn [rmap rbind].
    apply at_ok, nth_error_In in E. unfold lens in H. rewrite Forall_forall in H. specialize (H o E).
    destruct o as [a|]; cbn; [|reflexivity]. auto.
  Qed.
  Lemma set_map {A B} (f : A -> B) l i a : set_ (map f l) i (f a) = rmap (map f) (set_ l i a).
  Proof.
    assert (H : forall l i, set_nth (map f l) i (f a) = option_map (map f) (set_nth l i a)).
    { clear. induction l as [|x l IH]; intros [|i]; cbn; auto. rewrite IH. destruct (set_nth l i a); reflexivity. }
    unfold set_. rewrite H. destruct (set_nth l i a); reflexivity.
  Qed.
  Lemma set_forall {A} (P : A -> Prop) l i a l' : Forall P l -> P a -> set_ l i a = Ok l' -> Forall P l'.
  Proof.
    unfold set_. intros H Ha. assert (G : forall l i l', Forall P l -> set_nth l i a = Some l' -> Forall P l').
    { clear l i l' H. induction l as [|x l IH]; intros [|i] l' H E; cbn in E; try discriminate.
      - injection E as <-. inversion H; subst. constructor; auto.
      - destruct (set_nth l i a) as [r|] eqn:ES; [|discriminate]. injection E as <-. inversion H; subst. constructor; eauto. }
    destruct (set_nth l i a) eqn:E; [|discriminate]. intros [= <-]. eauto.
  Qed.
  Lemma put_arr {A} (get : nt_state XR -> list A) put (f : A -> A) i a b s :
    wf s -> get (ms s) = map f (get s) -> (forall l, put (ms s) (map f l) = ms (put s l)) -> b = f a ->
    (forall l, set_ (get s) i a = Ok l -> wf (put s l)) ->
    sm (fun _ _ => True) (nput get put i a) (nput get put i b) s.
  Proof.
    intros W G P -> H. unfold nput, sm, sbind, sget, lift, smod. rewrite G, set_map.
    destruct (set_ (get s) i a) as [l|e] eqn:E; cbn [rmap fst snd same_outcome]; auto.
  Qed.
  Lemma lens_set l i v l' : lens l -> length v = k -> set_ l i (Some v) = Ok l' -> lens l'.
  Proof. intros H Hv. apply set_forall; auto. intros w [= <-]. exact Hv. Qed.
  Lemma put_zs i v s : wf s -> length v = k -> sm (fun _ _ => True) (nput ns_zs u_zs i (Some v)) (nput ns_zs u_zs i (Some (arr v))) s.
  Proof. intros W Hv. apply (put_arr ns_zs u_zs om); auto. intros l E. constructor; cbn; [|apply W]. exact (lens_set _ _ _ _ (wf_zs s W) Hv E). Qed.
  Lemma put_fs i o s : wf s -> (forall v, o = Some v -> length v = k) -> sm (fun _ _ => True) (nput ns_fs u_fs i o) (nput ns_fs u_fs i (om o)) s.
  Proof. intros W Hv. apply (put_arr ns_fs u_fs om); auto. intros l E. constructor; cbn; [apply W|]. exact (set_forall _ _ _ _ _ (wf_fs s W) Hv E). Qed.
  Lemma put_lb i v s : wf s -> sm (fun _ _ => True) (nput ns_lb u_lb i (Some v)) (nput ns_lb u_lb i (Some (arr v))) s.
  Proof. intros W. apply (put_arr ns_lb u_lb om); auto. intros l E. constructor; cbn; apply W. Qed.
  Lemma put_ub i v s : wf s -> sm (fun _ _ => True) (nput ns_ub u_ub i (Some v)) (nput ns_ub u_ub i (Some (arr v))) s.
  Proof. intros W. apply (put_arr ns_ub u_ub om); auto. intros l E. constructor; cbn; apply W. Qed.
  Lemma put_xs i o s : wf s -> sm (fun _ _ => True) (nput ns_xs u_xs i o) (nput ns_xs u_xs i o) s.
  Proof.
    intros W. apply (put_arr ns_xs u_xs (fun x => x)); auto; [cbn; rewrite map_id; reflexivity| |].
    - intros l. rewrite map_id. reflexivity.
    - intros l E. constructor; cbn; apply W.
  Qed.
  Lemma put_ds i o s : wf s -> sm (fun _ _ => True) (nput ns_ds u_ds i o) (nput ns_ds u_ds i o) s.
  Proof.
    intros W. apply (put_arr ns_ds u_ds (fun x => x)); auto; [cbn; rewrite map_id; reflexivity| |].
    - intros l. rewrite map_id. reflexivity.
    - intros l E. constructor; cbn; apply W.
  Qed.

  (** ** The calls *)
  Context (p1 p2 : nt_problem XR) (v : nt_variant XR) (eps : XR) (ideal nadir : list XR).
  Context (MP : arranged_nt_problem p k p1 p2) (WF : nt_wf k p1 v ideal nadir).
  Notation v2 := (arranged_variant p v).
  Definition qok (q : nt_request XR) : Prop := match q with NReq z _ _ _ => length z = k | _ => True end.
  Notation qrel := (fun q1 q2 : nt_request XR => q2 = arranged_nt p q1 /\ qok q1).

  Lemma start_arr : nt_start v2 (arr nadir) = arr (nt_start v nadir).
  Proof. destruct v; reflexivity. Qed.
  Lemma off_arr : nt_off v2 = nt_off v.
  Proof. destruct v; reflexivity. Qed.
  Lemma bounds_arr z : length z = k -> same_outcome (fun a b => b = arr a) (nt_bounds p1 (length ideal) z) (nt_bounds p2 (length (arr ideal)) (arr z)).
  Proof.
    intros Hz. destruct WF as (_ & LI & _ & _ & LE). rewrite (arr_len p k HP _ LI), LI. unfold nt_bounds.
    set (f1 := fun i => do x <- np_ecm p1 i (drop_at i z) (np_x0 p1); at_ (np_eval p1 x) i).
    assert (H : map (fun i => do x <- np_ecm p2 i (drop_at i (arr z)) (np_x0 p2); at_ (np_eval p2 x) i) (seq 0 k) = arr (map f1 (seq 0 k))).
    { rewrite arr_map, (arr_order p k HP). apply nth_error_ext. intros j. rewrite !nth_error_map. destruct (Nat.lt_ge_cases j k) as [L|L].
      - rewrite (nth_error_nth' (seq 0 k) 0%nat) by (rewrite seq_length; exact L). rewrite seq_nth by exact L. cbn [option_map plus].
        destruct (nth_error p j) as [i|] eqn:E; [|apply nth_error_None in E; rewrite (ord_len p k HP) in E; lia]. cbn [option_map]. f_equal. unfold f1.
        rewrite (ap_ecm _ _ _ _ MP j i z E Hz). destruct (np_ecm p1 i (drop_at i z) (np_x0 p1)) as [x|e]; [|reflexivity]. cbn [rbind].
        rewrite (ap_eval _ _ _ _ MP). unfold at_. rewrite (arr_nth p k HP _ (LE x)), E. reflexivity.
      - rewrite !(proj2 (nth_error_None _ _)); [reflexivity| |]; [rewrite (ord_len p k HP)|rewrite seq_length]; exact L. }
    rewrite H. apply (rseq_arr p k HP). rewrite map_length. apply seq_length.
  Qed.

  Lemma solve_arr d1 d2 s : DA d1 d2 -> wf s -> sm (fun _ _ => True) (nt_solve p1 v eps ideal nadir d1) (nt_solve p2 v2 eps (arr ideal) (arr nadir) d2) s.
  Proof.
    intros HD W. pose proof WF as (_ & LI & LN & _ & LE). unfold nt_solve, nt_utopian. rewrite (aa_method _ _ _ _ HD).
    eapply (sm_bind eq); [apply sm_lift; [exact W|apply so_refl]|]. intros m ? sa Wa <-.
    eapply (sm_bind (arranged_info p k)); [apply sm_lift; [exact Wa|apply info_arr; exact HD]|]. intros i i' sb Wb Hii.
    eapply (sm_bind (fun a b => b = arr a /\ length a = k)); [apply sm_lift; [exact Wb|]|].
    { rewrite utopian_arr. apply weights_arr; [exact Hii|exact LN|rewrite map_length; exact LI]. }
    intros w ? sc Wc (-> & Hw). rewrite utopian_arr.
    eapply sm_bind; [apply sm_get; exact Wc|]. intros s1 s2 sd Wd [-> ->]. cbn [ns_zs ns_step ms].
    eapply sm_bind; [apply sm_lift; [exact Wd|apply slot_arr; apply Wc]|]. intros q ? se We (-> & Hq).
    eapply (sm_bind eq); [apply sm_lift; [exact We|]|].
    { rewrite (ap_min _ _ _ _ MP) by (auto; rewrite map_length; auto). apply so_refl. }
    intros x ? sf Wf <-.
    eapply sm_bind; [apply put_xs; exact Wf|]. intros _ _ sg Wg _.
    rewrite (ap_eval _ _ _ _ MP). apply (put_fs _ (Some (np_eval p1 x))); auto. intros ? [= <-]. apply LE.
  Qed.
  Lemma move_arr s : wf s -> sm (fun _ _ => True) (nt_move (N:=XR)) (nt_move (N:=XR)) s.
  Proof.
    intros W. unfold nt_move.
    eapply sm_bind; [apply sm_get; exact W|]. intros s1 s2 sa Wa [-> ->]. cbn [ns_zs ns_fs ns_step ns_left ms].
    eapply sm_bind; [apply sm_lift; [exact Wa|apply slot_arr; apply W]|]. intros z ? sb Wb (-> & Hz).
    eapply sm_bind; [apply sm_lift; [exact Wb|apply slot_arr; apply W]|]. intros f ? sc Wc (-> & Hf).
    eapply (sm_bind (fun a b => b = arr a /\ length a = k)); [apply sm_lift; [exact Wc|]|].
    { unfold nt_point. destruct (Z.eqb_spec (ns_left s) 0); [reflexivity|]. apply so_map; [apply comb_arr; auto|]. intros a H. apply comb_len in H; auto. }
    intros z' ? sd Wd (-> & Hz'). apply put_zs; auto.
  Qed.
  Lemma report_arr s : wf s -> sm qrel (nt_report p1 v ideal nadir) (nt_report p2 v2 (arr ideal) (arr nadir)) s.
  Proof.
    intros W. pose proof WF as (_ & LI & LN & LS & LE). unfold nt_report. rewrite off_arr, start_arr.
    eapply sm_bind; [apply sm_get; exact W|]. intros s1 s2 sa Wa [-> ->]. cbn [ns_zs ns_fs ns_step ms].
    eapply sm_bind; [apply sm_lift; [exact Wa|apply slot_arr; apply W]|]. intros z ? sb Wb (-> & Hz).
    eapply sm_bind; [apply sm_lift; [exact Wb|apply bounds_arr; exact Hz]|]. intros b ? sc Wc ->.
    eapply sm_bind; [apply put_lb; exact Wc|]. intros _ _ sd Wd _.
    eapply sm_bind; [apply put_ub; exact Wd|]. intros _ _ se We _.
    eapply sm_bind; [apply sm_lift; [exact We|apply slot_arr; apply W]|]. intros f ? sf Wf (-> & Hf).
    eapply (sm_bind eq); [apply sm_lift; [exact Wf|rewrite dist_arr by assumption; apply so_refl]|]. intros e ? sg Wg <-.
    eapply sm_bind; [apply put_ds; exact Wg|]. intros _ _ sh Wh _.
    apply sm_ret; [exact Wh|]. split; [reflexivity|exact Hz].
  Qed.
  Lemma lens_repeat n : lens (repeat None n).
  Proof. apply Forall_forall. intros o H. apply repeat_spec in H. subst. discriminate. Qed.
  Lemma om_repeat n : map om (repeat None n) = repeat None n.
  Proof. induction n; cbn; f_equal; auto. Qed.
  Lemma initial_arr d1 d2 s : DA d1 d2 -> wf s -> sm qrel (nt_handle_initial p1 v eps ideal nadir d1) (nt_handle_initial p2 v2 eps (arr ideal) (arr nadir) d2) s.
  Proof.
    intros HD W. pose proof WF as (_ & LI & LN & LS & LE). unfold nt_handle_initial, nt_utopian. rewrite off_arr, start_arr, (aa_n _ _ _ _ HD), (aa_method _ _ _ _ HD).
    eapply (sm_bind eq); [apply sm_lift; [exact W|apply so_refl]|]. intros o ? sa Wa <-.
    eapply (sm_bind eq); [apply sm_lift; [exact Wa|apply so_refl]|]. intros n ? sb Wb <-.
    eapply sm_bind; [apply sm_mod; [constructor; apply lens_repeat|]|].
    { unfold ms. cbn [ns_step ns_n ns_left ns_zs ns_xs ns_fs ns_ds ns_lb ns_ub]. rewrite !om_repeat. reflexivity. }
    intros _ _ sc Wc _.
    eapply sm_bind; [apply sm_get; exact Wc|]. intros s1 s2 sd Wd [-> ->]. cbn [ns_step ms].
    eapply sm_bind; [apply put_zs; [exact Wd|exact LS]|]. intros _ _ se We _.
    eapply (sm_bind eq); [apply sm_lift; [exact We|apply so_refl]|]. intros m ? sf Wf <-.
    eapply (sm_bind (arranged_info p k)); [apply sm_lift; [exact Wf|apply info_arr; exact HD]|]. intros i i' sg Wg Hii.
    eapply (sm_bind (fun a b => b = arr a /\ length a = k)); [apply sm_lift; [exact Wg|]|].
    { rewrite utopian_arr. apply weights_arr; [exact Hii|exact LN|rewrite map_length; exact LI]. }
    intros w ? sh Wh _.
    eapply sm_bind; [apply put_lb; exact Wh|]. intros _ _ si Wi _.
    eapply sm_bind; [apply put_ub; exact Wi|]. intros _ _ sj Wj _.
    eapply sm_bind; [apply solve_arr; [exact HD|exact Wj]|]. intros _ _ sk Wk _.
    eapply sm_bind; [apply move_arr; exact Wk|]. intros _ _ sl Wl _.
    apply report_arr. exact Wl.
  Qed.
  Lemma lens_ext e l : lens l -> lens (ext e l).
  Proof. intros H. unfold lens, ext. apply Forall_app. split; [exact H|apply lens_repeat]. Qed.
  Lemma om_ext e l : ext e (map om l) = map om (ext e l).
  Proof. unfold ext. rewrite map_app, om_repeat. reflexivity. Qed.
  Lemma change_arr d1 d2 s : DA d1 d2 -> wf s -> sm (fun _ _ => True) (nt_change v d1) (nt_change v2 d2) s.
  Proof.
    intros HD W. unfold nt_change. rewrite (aa_n _ _ _ _ HD). destruct (nd_n d1) as [o|]; [|apply sm_ret; auto].
    eapply (sm_bind eq); [apply sm_lift; [exact W|apply so_refl]|]. intros m ? sa Wa <-.
    assert (H : wf (nt_extend m sa) /\ nt_extend m (ms sa) = ms (nt_extend m sa)).
    { unfold nt_extend. cbn [ns_n ms]. destruct (ns_n sa <? m)%Z; [|auto]. split.
      - constructor; cbn; apply lens_ext; apply Wa.
      - unfold ms. cbn [ns_step ns_n ns_left ns_zs ns_xs ns_fs ns_ds ns_lb ns_ub]. rewrite !om_ext. reflexivity. }
    destruct H as [H1 H2]. apply sm_mod.
    - destruct v; constructor; cbn; apply H1.
    - rewrite H2. destruct v; reflexivity.
  Qed.
  Notation qopt := (fun o1 o2 : option (nt_request XR) => match o1, o2 with Some q1, Some q2 => qrel q1 q2 | None, None => True | _, _ => False end).
  Lemma opt_ret m1 m2 s : sm qrel m1 m2 s -> sm qopt (q <-- m1 ;; sret (Some q)) (q <-- m2 ;; sret (Some q)) s.
  Proof. intros H. eapply sm_bind; [exact H|]. intros a b s' W' Q. apply sm_ret; auto. Qed.
  Lemma at_om l i : lens l -> same_outcome (fun a b => b = om a /\ forall u, a = Some u -> length u = k) (at_ l i) (at_ (map om l) i).
  Proof.
    intros H. rewrite at_map. destruct (at_ l i) as [o|e] eqn:E1; [|reflexivity]. split; [reflexivity|].
    apply at_ok, nth_error_In in E1. unfold lens in H. rewrite Forall_forall in H. exact (H o E1).
  Qed.
  Lemma forward_arr d1 d2 s : DA d1 d2 -> wf s -> sm qrel (nt_forward p1 v eps ideal nadir d1) (nt_forward p2 v2 eps (arr ideal) (arr nadir) d2) s.
  Proof.
    intros HD W. unfold nt_forward. rewrite (aa_prev _ _ _ _ HD).
    eapply sm_bind; [apply sm_mod; [constructor; cbn; apply W|reflexivity]|]. intros _ _ sa Wa _.
    eapply (sm_bind eq); [apply sm_lift; [exact Wa|apply so_refl]|]. intros u ? sb Wb <-.
    eapply (sm_bind (fun _ _ => True)).
    - destruct (truthy u).
      + eapply sm_bind; [apply sm_get; exact Wb|]. intros s1 s2 sc Wc [-> ->]. cbn [ns_xs ns_fs ns_step ms].
        eapply (sm_bind eq); [apply sm_lift; [exact Wc|apply so_refl]|]. intros x ? sd Wd <-.
        eapply sm_bind; [apply put_xs; exact Wd|]. intros _ _ se We _.
        eapply sm_bind; [apply sm_lift; [exact We|apply at_om; apply Wb]|]. intros f ? sf Wf (-> & Hf).
        apply put_fs; auto.
      + apply solve_arr; [exact HD|exact Wb].
    - intros _ _ sc Wc _. eapply sm_bind; [apply move_arr; exact Wc|]. intros _ _ sd Wd _. apply report_arr. exact Wd.
  Qed.
  Lemma half_arr s : wf s -> sm qrel (nt_half p1 v ideal nadir) (nt_half p2 v2 (arr ideal) (arr nadir)) s.
  Proof.
    intros W. unfold nt_half.
    eapply sm_bind; [apply sm_get; exact W|]. intros s1 s2 sa Wa [-> ->]. cbn [ns_zs ns_step ms].
    eapply sm_bind; [apply sm_lift; [exact Wa|apply slot_arr; apply W]|]. intros z ? sb Wb (-> & Hz).
    eapply sm_bind; [apply sm_lift; [exact Wb|apply slot_arr; apply W]|]. intros z0 ? sc Wc (-> & Hz0).
    eapply (sm_bind (fun a b => b = arr a /\ length a = k)); [apply sm_lift; [exact Wc|]|].
    { apply so_map; [apply comb_arr; auto|]. intros a H. apply comb_len in H; auto. }
    intros z' ? sd Wd (-> & Hz').
    eapply sm_bind; [apply put_zs; auto|]. intros _ _ se We _. apply report_arr. exact We.
  Qed.
  Lemma handle_arr d1 d2 s : DA d1 d2 -> wf s -> sm qopt (nt_handle p1 v eps ideal nadir d1) (nt_handle p2 v2 eps (arr ideal) (arr nadir) d2) s.
  Proof.
    intros HD W. unfold nt_handle. rewrite (aa_back _ _ _ _ HD), (aa_short _ _ _ _ HD), (aa_prev _ _ _ _ HD).
    eapply sm_bind; [apply change_arr; [exact HD|exact W]|]. intros _ _ sa Wa _.
    eapply sm_bind; [apply sm_get; exact Wa|]. intros s1 s2 sb Wb [-> ->]. cbn [ns_xs ns_fs ns_step ns_left ms].
    destruct (ns_left sa <=? 1)%Z.
    - eapply sm_bind; [apply sm_mod; [constructor; cbn; apply Wb|reflexivity]|]. intros _ _ sc Wc _.
      eapply (sm_bind eq); [apply sm_lift; [exact Wc|apply so_refl]|]. intros x ? sd Wd <-.
      eapply sm_bind; [apply sm_lift; [exact Wd|apply at_om; apply Wa]|]. intros f ? se We (-> & Hf).
      apply sm_ret; [exact We|]. split; [reflexivity|exact I].
    - eapply (sm_bind eq); [apply sm_lift; [exact Wb|apply so_refl]|]. intros b ? sc Wc <-.
      destruct (negb (truthy b)); [apply opt_ret, forward_arr; [exact HD|exact Wc]|].
      eapply (sm_bind eq); [apply sm_lift; [exact Wc|apply so_refl]|]. intros h ? sd Wd <-.
      destruct (truthy h); [apply opt_ret, half_arr; exact Wd|].
      eapply (sm_bind eq); [apply sm_lift; [exact Wd|apply so_refl]|]. intros u ? se We <-.
      destruct (truthy u); [apply sm_ret; auto|].
      eapply sm_bind; [apply solve_arr; [exact HD|exact We]|]. intros _ _ sf Wf _.
      eapply sm_bind; [apply move_arr; exact Wf|]. intros _ _ sg Wg _.
      apply opt_ret, report_arr. exact Wg.
  Qed.
  Lemma iterate_arr q1 resp1 resp2 s : qok q1 -> wf s -> both (fun d1 d2 => DA d1 d2 /\ nt_validate v nadir q1 d1 = Ok tt) resp1 resp2 ->
    sm qopt (nt_iterate p1 v eps ideal nadir q1 resp1) (nt_iterate p2 v2 eps (arr ideal) (arr nadir) (arranged_nt p q1) resp2) s.
  Proof.
    intros HQ W HB. destruct q1 as [|z lo hi e|x f]; cbn [nt_iterate arranged_nt].
    - unfold both in HB. destruct resp1 as [d1|], resp2 as [d2|]; try contradiction; cbn [nt_resp].
      2:{ unfold sm, sbind, lift. cbn [fst snd same_outcome]. repeat split; try apply W. }
      eapply (sm_bind (fun a b => a = d1 /\ b = d2)); [apply sm_lift; [exact W|]; cbn; auto|]. intros a b s1 W1 [-> ->].
      apply opt_ret, initial_arr; [exact (proj1 HB)|exact W1].
    - unfold both in HB. destruct resp1 as [d1|], resp2 as [d2|]; try contradiction; cbn [nt_resp].
      2:{ unfold sm, sbind, lift. cbn [fst snd same_outcome]. repeat split; try apply W. }
      eapply (sm_bind (fun a b => a = d1 /\ b = d2)); [apply sm_lift; [exact W|]; cbn; auto|]. intros a b s1 W1 [-> ->].
      apply handle_arr; [exact (proj1 HB)|exact W1].
    - apply sm_ret; [exact W|]. split; [reflexivity|exact Logic.I].
  Qed.
  (** ** which answers are accepted *)
  Lemma pymax_npmax (w : list XR) : Forall (fun x : XR => nisnan x = false) w -> w <> [] -> pymax w = npmax w.
  Proof.
    intros H N. destruct w as [|x w]; [congruence|]. unfold pymax, npmax. f_equal. inversion H as [|? ? Hx Hw]; subst. clear H N. revert x Hx.
    induction Hw as [|y w Hy Hw IH]; intros x Hx; [reflexivity|]. cbn [fold_left].
    assert (EM : (if nltb x y then y else x) = nmaximum x y).
    { unfold nmaximum. rewrite Hx, orb_false_r. destruct x as [| | |x], y as [| | |y]; try reflexivity; try discriminate Hx; try discriminate Hy.
      destruct (nltb (Fin x : XR) (Fin y)) eqn:L; destruct (nleb (Fin y : XR) (Fin x)) eqn:G; try reflexivity; exfalso.
      - apply xltb_fin in L. apply xleb_fin in G. lra.
      - assert (~ (x < y)%R) by (intros Q; apply xltb_fin in Q; congruence). assert (~ (y <= x)%R) by (intros Q; apply xleb_fin in Q; congruence). lra. }
    rewrite EM. apply IH. rewrite <- EM. destruct (nltb x y); assumption.
  Qed.
  Lemma pymax_arr (w : list XR) : length w = k -> Forall (fun x : XR => nisnan x = false) w -> pymax (arr w) = pymax w.
  Proof.
    intros HL HF. pose proof (arr_perm p k HP w HL) as PW. destruct w as [|x w]; [apply Permutation_sym, Permutation_nil in PW; rewrite PW; reflexivity|].
    rewrite !pymax_npmax; [apply (arr_npmax p k HP); exact HL|exact HF|discriminate| |].
    - rewrite Forall_forall in HF |- *. intros y Hy. apply HF. eapply Permutation_in; eauto.
    - intros E. rewrite E in PW. apply Permutation_nil in PW. discriminate.
  Qed.
  Lemma existsb_arr {A} (g : A -> bool) (w : list A) : length w = k -> existsb g (arr w) = existsb g w.
  Proof.
    intros HL. pose proof (arr_perm p k HP w HL) as PW. destruct (existsb g w) eqn:E.
    - apply existsb_exists in E. destruct E as (x & Hx & Gx). apply existsb_exists. exists x. split; [|exact Gx]. eapply Permutation_in; [apply Permutation_sym|]; eauto.
    - destruct (existsb g (arr w)) eqn:E2; [|reflexivity]. apply existsb_exists in E2. destruct E2 as (x & Hx & Gx). exfalso.
      assert (existsb g w = true) by (apply existsb_exists; exists x; split; [eapply Permutation_in; eauto|exact Gx]). congruence.
  Qed.
  Lemma check_arr d1 d2 : DA d1 d2 -> nt_check_pref v2 (length (arr nadir)) d2 = nt_check_pref v (length nadir) d1.
  Proof.
    intros HD. destruct WF as (K0 & _ & LN & _). rewrite (arr_len p k HP _ LN), LN. unfold nt_check_pref. rewrite (aa_method _ _ _ _ HD).
    pose proof (aa_info _ _ _ _ HD) as HI. unfold both in HI. destruct (nd_method d1) as [m|]; [|reflexivity].
    destruct (nd_info d1) as [i|], (nd_info d2) as [i'|]; try contradiction; [|reflexivity].
    destruct v as [|st fuel]; cbn [arranged_variant].
    - unfold nt1_check. destruct HI as [w Hw Fw|w Hw Fw|]; cbn [info_len rbind]; try reflexivity;
        rewrite (arr_len p k HP w Hw), (pymax_arr w Hw Fw), (arr_vsum p k HP w Hw), Hw; reflexivity.
    - unfold nt2_check. destruct HI as [w Hw Fw|w Hw Fw|]; cbn [info_len rbind]; try reflexivity.
      + rewrite !(existsb_arr _ w Hw), (arr_len p k HP w Hw), Hw. destruct w as [|x w]; [cbn in Hw; lia|].
        destruct (arr (x :: w)) as [|y w'] eqn:EA; [|reflexivity]. pose proof (arr_len p k HP _ Hw) as LA. rewrite EA in LA. cbn in LA. lia.
      + rewrite (arr_len p k HP w Hw), Hw. destruct w as [|x w]; [cbn in Hw; lia|].
        destruct (arr (x :: w)) as [|y w'] eqn:EA; [|reflexivity]. pose proof (arr_len p k HP _ Hw) as LA. rewrite EA in LA. cbn in LA. lia.
  Qed.
  Lemma validate_arr q1 d1 d2 : qok q1 -> DA d1 d2 -> nt_validate v2 (arr nadir) (arranged_nt p q1) d2 = nt_validate v nadir q1 d1.
  Proof.
    intros HQ HD. pose proof WF as (_ & LI & LN & LS & LE). destruct q1 as [|z lo hi e|x f]; cbn [nt_validate arranged_nt]; try reflexivity;
      rewrite (aa_n _ _ _ _ HD), (aa_back _ _ _ _ HD), (aa_prev _ _ _ _ HD), (check_arr d1 d2 HD); [reflexivity|].
    rewrite (array_equal_arr z nadir) by assumption. reflexivity.
  Qed.

  (** ** histories *)
  Lemma parallel_inv s1 s2 qs : nt_parallel p k p1 p2 v eps ideal nadir s1 s2 qs -> s2 = ms s1 /\ wf s1 /\ Forall (fun q => qrel (fst q) (snd q)) qs.
  Proof.
    induction 1 as [|s1 s2 qs q1 q2 resp1 resp2 s1' s2' out1 out2 H (-> & W & HQ) Hin HB E1 E2].
    - split; [reflexivity|]. split; [constructor; constructor|]. repeat constructor.
    - rewrite Forall_forall in HQ. pose proof (HQ _ Hin) as [Hq Hok]. cbn [fst snd] in Hq, Hok. subst q2.
      pose proof (iterate_arr q1 resp1 resp2 s1 Hok W HB) as (W' & E' & R). rewrite E1, E2 in *. cbn [fst snd] in *.
      split; [exact E'|]. split; [exact W'|]. rewrite <- Forall_forall in HQ.
      destruct out1 as [[q1'|]|], out2 as [[q2'|]|]; auto.
  Qed.
End Ord.

(** ** The documented functions *)
Lemma drop_perm {A} : forall (l : list A) i x, nth_error l i = Some x -> Permutation l (x :: drop_at i l).
Proof.
  induction l as [|a l IH]; intros [|i] x E; try discriminate.
  - injection E as ->. reflexivity.
  - cbn [nth_error] in E. specialize (IH i x E). change (drop_at (S i) (a :: l)) with (a :: drop_at i l). rewrite perm_swap. constructor. exact IH.
Qed.
Lemma drop_zip {A B C} (f : A -> B -> C) : forall (a : list A) (b : list B) i, length a = length b -> zipw f (drop_at i a) (drop_at i b) = drop_at i (zipw f a b).
Proof.
  induction a as [|x a IH]; intros [|y b] i H; try discriminate; [destruct i; reflexivity|]. destruct i as [|i]; [reflexivity|].
  change (drop_at (S i) (x :: a)) with (x :: drop_at i a). change (drop_at (S i) (y :: b)) with (y :: drop_at i b). cbn [zipw].
  change (drop_at (S i) (f x y :: zipw f a b)) with (f x y :: drop_at i (zipw f a b)). f_equal. apply IH. injection H. auto.
Qed.
Lemma drop_length {A B} : forall (a : list A) (b : list B) i, length a = length b -> length (drop_at i a) = length (drop_at i b).
Proof.
  induction a as [|x a IH]; intros [|y b] i H; try discriminate; [destruct i; reflexivity|]. destruct i as [|i]; [cbn in *; lia|].
  change (drop_at (S i) (x :: a)) with (x :: drop_at i a). change (drop_at (S i) (y :: b)) with (y :: drop_at i b). cbn [length]. f_equal. apply IH. injection H. auto.
Qed.
Lemma drop_arr p k (HP : Permutation p (seq 0 k)) (l : list XR) j i : length l = k -> nth_error p j = Some i -> Permutation (drop_at i l) (drop_at j (arranged p l)).
Proof.
  intros HL E. assert (Hi : (i < length l)%nat) by (rewrite HL; apply (ord_lt p k HP); eapply nth_error_In; exact E).
  destruct (nth_error l i) as [x|] eqn:Ex; [|apply nth_error_None in Ex; lia].
  assert (Ea : nth_error (arranged p l) j = Some x) by (rewrite (arr_nth p k HP _ HL), E; exact Ex).
  apply (Permutation_cons_inv (a := x)). rewrite <- (drop_perm l i x Ex), <- (drop_perm _ j x Ea). apply Permutation_sym. apply (arr_perm p k HP). exact HL.
Qed.
Lemma solved_arr p k rho solve csolve eval constr x0 : Permutation p (seq 0 k) -> sees_values solve -> ignores_the_order csolve -> (forall x, length (eval x) = k) ->
  arranged_nt_problem p k (solved_by rho solve csolve eval constr x0) (solved_by rho solve csolve (fun x => arranged p (eval x)) constr x0).
Proof.
  intros HP HS HC LE. constructor; cbn [solved_by np_eval np_x0 np_min np_ecm]; auto.
  - intros w n u q Hw Hn Hu Hq. apply HS. intros x. unfold asf_of. apply (asf_arr p k HP); auto.
  - intros j i z E Hz. apply HC.
    + intros x. unfold at_. rewrite (arr_nth p k HP _ (LE x)), E. reflexivity.
    + intros x. unfold slack_of. rewrite !bcast2_eq by (apply drop_length; rewrite ?(arr_len p k HP) by auto; rewrite ?LE; auto). cbn [same_outcome].
      rewrite !drop_zip by (rewrite ?(arr_len p k HP) by auto; rewrite ?LE; auto). rewrite arr_zipw by (rewrite LE; exact Hz).
      apply (drop_arr p k HP); [|exact E]. rewrite zipw_length, LE, Hz. apply Nat.min_id.
Qed.
