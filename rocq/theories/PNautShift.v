(** * NAUTILUS and NAUTILUS 2: constants added to the objectives (C113), proofs. *)
From Coq Require Import ZArith Reals Lra List Bool Lia.
From Verif Require Import Num NumXR Py Np Spec NpFacts XRFacts SNavShift PNavShift MAsf MNautilus SNautilus SNautShift.
Import ListNotations.
Open Scope R_scope.

(** ** Numbers and vectors *)
Lemma up_eqb t (x y : XR) : neqb (up t x) (up t y) = neqb x y.
Proof.
  destruct x as [| | |a], y as [| | |b]; try reflexivity. cbn [up neqb XR]. unfold xeqb, xleb, rleb.
  destruct (Rle_dec (a + t) (b + t)), (Rle_dec a b), (Rle_dec (b + t) (a + t)), (Rle_dec b a); auto; lra.
Qed.
Lemma rseq_zip {A B} (g : nat -> A -> B) (f : nat -> res A) : forall l,
  rseq (map (fun i => rmap (g i) (f i)) l) = rmap (zipw g l) (rseq (map f l)).
Proof.
  induction l as [|i l IH]; [reflexivity|]. cbn [map rseq]. destruct (f i) as [a|e]; [|reflexivity]. cbn [rmap rbind].
  rewrite IH. destruct (rseq (map f l)); reflexivity.
Qed.
Lemma zip_moved : forall t v n (T : list R), length v = length t -> (forall i, nth (n + i) T 0 = nth i t 0) ->
  zipw (fun i => up (nth i T 0)) (seq n (length t)) v = moved t v.
Proof.
  induction t as [|c t IH]; intros [|x v] n T H HT; cbn in *; auto; try discriminate. f_equal.
  - specialize (HT 0%nat). rewrite Nat.add_0_r in HT. rewrite HT. reflexivity.
  - apply IH; [lia|]. intros i. specialize (HT (S i)). rewrite Nat.add_succ_r in HT. exact HT.
Qed.
Lemma rseq_len {A} : forall (l : list (res A)) v, rseq l = Ok v -> length v = length l.
Proof. intros l v H. apply rseq_ok in H. subst. rewrite map_length. reflexivity. Qed.

Lemma zip_maps {A B C D E} (f : C -> D -> E) (g : A -> C) (h : B -> D) : forall a b, zipw f (map g a) (map h b) = zipw (fun x y => f (g x) (h y)) a b.
Proof. induction a as [|x a IH]; intros [|y b]; cbn; auto. f_equal. apply IH. Qed.
Section Sh.
  Context (t : list R).
  Notation k := (length t).
  Notation mv := (moved t).

  Lemma weights1_moved : forall (f n u : list XR), length n = k -> length u = k -> nt1_weights f (mv n) (mv u) = nt1_weights f n u.
  Proof.
    clear. induction t as [|c t' IH]; intros [|r f] [|n ns] [|u us] H1 H2; cbn in *; auto; try discriminate.
    rewrite up_sub, IH by lia. reflexivity.
  Qed.
  Lemma utopian_moved (ideal : list XR) eps : map (fun x => nsub x (Fin eps : XR)) (mv ideal) = mv (map (fun x => nsub x (Fin eps : XR)) ideal).
  Proof.
    clear. revert ideal. induction t as [|c t' IH]; intros [|x ideal]; cbn [moved map]; auto. rewrite IH. f_equal. apply up_sub_r.
  Qed.
  Lemma weights_moved v m i (n u : list XR) : length n = k -> length u = k ->
    nt_weights (moved_variant t v) m i (mv n) (mv u) = nt_weights v m i n u.
  Proof.
    intros H1 H2. destruct v; cbn [nt_weights moved_variant]; [|rewrite moved_length; reflexivity].
    unfold nt1_factors. destruct (py_eq m 1); [destruct i; rewrite ?weights1_moved by assumption; reflexivity|].
    destruct (py_eq m 2); [|reflexivity]. destruct i; rewrite ?weights1_moved by assumption; reflexivity.
  Qed.
  Lemma comb_moved (l : Z) (z f : list XR) : (l <> 0)%Z -> length z = k -> length f = k ->
    bcast2 nadd (vscale (ndiv (nofZ (l - 1)) (nofZ l)) (mv z)) (vscale (ndiv (nofZ 1) (nofZ l)) (mv f)) =
    rmap mv (bcast2 nadd (vscale (ndiv (nofZ (l - 1)) (nofZ l)) z) (vscale (ndiv (nofZ 1) (nofZ l)) f)).
  Proof.
    intros Hl Hz Hf. unfold bcast2, vscale. rewrite !map_length, !moved_length, Hz, Hf, Nat.eqb_refl. cbn [rmap]. f_equal.
    rewrite !zip_maps. apply (moved_zipw_up (fun x y => nadd (nmul (ndiv (nofZ (l - 1)) (nofZ l)) x) (nmul (ndiv (nofZ 1) (nofZ l)) y)) t); auto.
    intros. apply up_comb. exact Hl.
  Qed.
  Lemma comb_len (a b : XR) (z f v : list XR) : length z = k -> length f = k -> bcast2 nadd (vscale a z) (vscale b f) = Ok v -> length v = k.
  Proof.
    intros Hz Hf H. unfold bcast2, vscale in H. rewrite !map_length, Hz, Hf, Nat.eqb_refl in H. injection H as <-. rewrite zipw_length, !map_length. transitivity (Nat.min k k); [f_equal; auto|apply Nat.min_id].
  Qed.
  Lemma dist_moved (z s f : list XR) : length z = k -> length s = k -> length f = k -> nt_dist (mv z) (mv s) (mv f) = nt_dist z s f.
  Proof. intros H1 H2 H3. unfold nt_dist. rewrite !(moved_bcast nsub t) by (auto using up_sub). reflexivity. Qed.
  Lemma array_equal_moved (a b : list XR) : length a = k -> length b = k -> array_equal (mv a) (mv b) = array_equal a b.
  Proof. intros H1 H2. unfold array_equal. rewrite !moved_length, (moved_zipw neqb t) by (auto using up_eqb). reflexivity. Qed.

  Definition om (o : option (list XR)) := option_map mv o.
  Definition ms (s : nt_state XR) : nt_state XR :=
    MkNT (ns_step s) (ns_n s) (ns_left s) (map om (ns_zs s)) (ns_xs s) (map om (ns_fs s)) (ns_ds s) (map om (ns_lb s)) (map om (ns_ub s)).
  Definition lens (l : list (option (list XR))) : Prop := Forall (fun o => forall v, o = Some v -> length v = k) l.
  Record wf (s : nt_state XR) : Prop := MkWf { wf_zs : lens (ns_zs s); wf_fs : lens (ns_fs s) }.

  Definition rr {A B} (P : A -> B -> Prop) (r1 : res A) (r2 : res B) : Prop :=
    match r1, r2 with Ok a, Ok b => P a b | Raise e1, Raise e2 => e1 = e2 | _, _ => False end.
  Definition sm {A B} (P : A -> B -> Prop) (m1 : SE (nt_state XR) A) (m2 : SE (nt_state XR) B) (s : nt_state XR) : Prop :=
    wf (fst (m1 s)) /\ fst (m2 (ms s)) = ms (fst (m1 s)) /\ rr P (snd (m1 s)) (snd (m2 (ms s))).
  Lemma sm_bind {A B C D} (P : A -> B -> Prop) (Q : C -> D -> Prop) m1 m2 (f : A -> SE (nt_state XR) C) (g : B -> SE (nt_state XR) D) s :
    sm P m1 m2 s -> (forall a b s', wf s' -> P a b -> sm Q (f a) (g b) s') -> sm Q (sbind m1 f) (sbind m2 g) s.
  Proof.
    intros (W & E & R) H. unfold sm, sbind. destruct (m1 s) as [s1 r1], (m2 (ms s)) as [s2 r2]. cbn [fst snd] in *. subst s2.
    destruct r1 as [a|e1], r2 as [b|e2]; cbn [rr] in R; try contradiction; cbn [fst snd]; [exact (H a b s1 W R)|]. subst. repeat split; auto; apply W.
  Qed.
  Lemma sm_lift {A B} (P : A -> B -> Prop) r1 r2 s : wf s -> rr P r1 r2 -> sm P (lift r1) (lift r2) s.
  Proof. intros W H. unfold sm, lift. cbn [fst snd]. auto. Qed.
  Lemma sm_get s : wf s -> sm (fun a b => b = ms a /\ a = s) sget sget s.
  Proof. intros W. unfold sm, sget. cbn [fst snd rr]. auto. Qed.
  Lemma sm_mod f g s : wf (f s) -> g (ms s) = ms (f s) -> sm (fun _ _ => True) (smod f) (smod g) s.
  Proof. intros W E. unfold sm, smod. cbn [fst snd rr]. auto. Qed.
  Lemma sm_ret {A B} (P : A -> B -> Prop) a b s : wf s -> P a b -> sm P (sret a) (sret b) s.
  Proof. intros W H. unfold sm, sret. cbn [fst snd rr]. auto. Qed.
  Lemma rr_refl {A} (r : res A) : rr eq r r.
  Proof. destruct r; reflexivity. Qed.
  Lemma rr_map {A B} (f : A -> B) (P : A -> Prop) (r : res A) (r' : res B) : r' = rmap f r -> (forall a, r = Ok a -> P a) -> rr (fun a b => b = f a /\ P a) r r'.
  Proof. intros -> H. destruct r; cbn; auto. Qed.

  (** Slots. *)
  Lemma slot_same {A} (l : list (option A)) i : rr eq (slot l i) (slot l i).
  Proof. apply rr_refl. Qed.
  Lemma slot_moved l i : lens l -> rr (fun a b => b = mv a /\ length a = k) (slot l i) (slot (map om l) i).
  Proof.
    intros H. unfold slot. rewrite at_map. destruct (at_ l i) as [o|e] eqn:E; [|reflexivity]. cbn [rmap rbind].
    apply at_ok, nth_error_In in E. unfold lens in H. rewrite Forall_forall in H. specialize (H o E).
    destruct o as [a|]; cbn; [|reflexivity]. auto.
  Qed.
  Lemma set_map {A B} (f : A -> B) l i a : set_ (map f l) i (f a) = rmap (map f) (set_ l i a).
  Proof.
    assert (H : forall l i, set_nth (map f l) i (f a) = option_map (map f) (set_nth l i a)).
    { clear. induction l as [|x l IH]; intros [|i]; cbn; auto. rewrite IH. destruct (set_nth l i a); reflexivity. }
    unfold set_. rewrite H. destruct (set_nth l i a); reflexivity.
  Qed.
  Lemma set_forall {A} (P : A -> Prop) l i a l' : Forall P l -> P a -> set_ l i a = Ok l' -> Forall P l'.
  Proof.
    unfold set_. intros H Ha. assert (G : forall l i l', Forall P l -> set_nth l i a = Some l' -> Forall P l').
    { clear l i l' H. induction l as [|x l IH]; intros [|i] l' H E; cbn in E; try discriminate.
      - injection E as <-. inversion H; subst. constructor; auto.
      - destruct (set_nth l i a) as [r|] eqn:ES; [|discriminate]. injection E as <-. inversion H; subst. constructor; eauto. }
    destruct (set_nth l i a) eqn:E; [|discriminate]. intros [= <-]. eauto.
  Qed.
  Lemma put_moved {A} (get : nt_state XR -> list A) put (f : A -> A) i a b s :
    wf s -> get (ms s) = map f (get s) -> (forall l, put (ms s) (map f l) = ms (put s l)) -> b = f a ->
    (forall l, set_ (get s) i a = Ok l -> wf (put s l)) ->
    sm (fun _ _ => True) (nput get put i a) (nput get put i b) s.
  Proof.
    intros W G P -> H. unfold nput, sm, sbind, sget, lift, smod. rewrite G, set_map.
    destruct (set_ (get s) i a) as [l|e] eqn:E; cbn [rmap fst snd rr]; auto.
  Qed.
  Lemma lens_set l i v l' : lens l -> length v = k -> set_ l i (Some v) = Ok l' -> lens l'.
  Proof. intros H Hv. apply set_forall; auto. intros w [= <-]. exact Hv. Qed.
  Lemma put_zs i v s : wf s -> length v = k -> sm (fun _ _ => True) (nput ns_zs u_zs i (Some v)) (nput ns_zs u_zs i (Some (mv v))) s.
  Proof. intros W Hv. apply (put_moved ns_zs u_zs om); auto. intros l E. constructor; cbn; [|apply W]. exact (lens_set _ _ _ _ (wf_zs s W) Hv E). Qed.
  Lemma put_fs i o s : wf s -> (forall v, o = Some v -> length v = k) -> sm (fun _ _ => True) (nput ns_fs u_fs i o) (nput ns_fs u_fs i (om o)) s.
  Proof. intros W Hv. apply (put_moved ns_fs u_fs om); auto. intros l E. constructor; cbn; [apply W|]. exact (set_forall _ _ _ _ _ (wf_fs s W) Hv E). Qed.
  Lemma put_lb i v s : wf s -> sm (fun _ _ => True) (nput ns_lb u_lb i (Some v)) (nput ns_lb u_lb i (Some (mv v))) s.
  Proof. intros W. apply (put_moved ns_lb u_lb om); auto. intros l E. constructor; cbn; apply W. Qed.
  Lemma put_ub i v s : wf s -> sm (fun _ _ => True) (nput ns_ub u_ub i (Some v)) (nput ns_ub u_ub i (Some (mv v))) s.
  Proof. intros W. apply (put_moved ns_ub u_ub om); auto. intros l E. constructor; cbn; apply W. Qed.
  Lemma put_xs i o s : wf s -> sm (fun _ _ => True) (nput ns_xs u_xs i o) (nput ns_xs u_xs i o) s.
  Proof.
    intros W. apply (put_moved ns_xs u_xs (fun x => x)); auto; [cbn; rewrite map_id; reflexivity| |].
    - intros l. rewrite map_id. reflexivity.
    - intros l E. constructor; cbn; apply W.
  Qed.
  Lemma put_ds i o s : wf s -> sm (fun _ _ => True) (nput ns_ds u_ds i o) (nput ns_ds u_ds i o) s.
  Proof.
    intros W. apply (put_moved ns_ds u_ds (fun x => x)); auto; [cbn; rewrite map_id; reflexivity| |].
    - intros l. rewrite map_id. reflexivity.
    - intros l E. constructor; cbn; apply W.
  Qed.

  (** ** The calls *)
  Context (p1 p2 : nt_problem XR) (v : nt_variant XR) (eps : R) (ideal nadir : list XR).
  Context (MP : moved_problem t eps ideal nadir p1 p2) (WF : nt_wf k p1 v ideal nadir).
  Notation v2 := (moved_variant t v).
  Notation E := (Fin eps : XR).
  Notation qrel := (fun q1 q2 : nt_request XR => q2 = moved_nt t q1 /\ match q1 with NReq z _ _ _ => length z = k | _ => True end).

  Lemma start_moved : nt_start v2 (mv nadir) = mv (nt_start v nadir).
  Proof. destruct v; reflexivity. Qed.
  Lemma off_moved : nt_off v2 = nt_off v.
  Proof. destruct v; reflexivity. Qed.
  Lemma bounds_moved z : length z = k -> rr (fun a b => b = mv a) (nt_bounds p1 (length ideal) z) (nt_bounds p2 (length (mv ideal)) (mv z)).
  Proof.
    intros Hz. destruct WF as (_ & LI & _ & _ & LE). rewrite moved_length, LI. unfold nt_bounds.
    set (f1 := fun i => do x <- np_ecm p1 i (drop_at i z) (np_x0 p1); at_ (np_eval p1 x) i).
    assert (H : rseq (map (fun i => do x <- np_ecm p2 i (drop_at i (mv z)) (np_x0 p2); at_ (np_eval p2 x) i) (seq 0 k)) =
                rseq (map (fun i => rmap (up (nth i t 0)) (f1 i)) (seq 0 k))).
    { f_equal. apply map_ext_in. intros i Hi. apply in_seq in Hi. unfold f1. rewrite (mp_ecm _ _ _ _ _ _ MP) by (auto; lia).
      destruct (np_ecm p1 i (drop_at i z) (np_x0 p1)) as [x|e]; [|reflexivity]. cbn [rbind].
      rewrite (mp_eval _ _ _ _ _ _ MP). unfold at_. rewrite moved_nth_error by apply LE. destruct (nth_error (np_eval p1 x) i); reflexivity. }
    rewrite H, rseq_zip. destruct (rseq (map f1 (seq 0 k))) as [b|e] eqn:EB; cbn [rmap rr]; [|reflexivity].
    apply zip_moved; auto. apply rseq_len in EB. rewrite map_length, seq_length in EB. exact EB.
  Qed.

  Lemma solve_moved d s : wf s -> sm (fun _ _ => True) (nt_solve p1 v E ideal nadir d) (nt_solve p2 v2 E (mv ideal) (mv nadir) d) s.
  Proof.
    intros W. pose proof WF as (_ & LI & LN & _ & LE). unfold nt_solve, nt_utopian.
    eapply (sm_bind eq); [apply sm_lift; [exact W|apply rr_refl]|]. intros m ? sa Wa <-.
    eapply (sm_bind eq); [apply sm_lift; [exact Wa|apply rr_refl]|]. intros i ? sb Wb <-.
    eapply (sm_bind eq); [apply sm_lift; [exact Wb|]|].
    { rewrite utopian_moved, weights_moved; [apply rr_refl|exact LN|rewrite map_length; exact LI]. }
    intros w ? sc Wc <-.
    eapply sm_bind; [apply sm_get; exact Wc|]. intros s1 s2 sd Wd [-> ->]. cbn [ns_zs ns_step ms].
    eapply sm_bind; [apply sm_lift; [exact Wd|apply slot_moved; apply Wc]|]. intros q ? se We (-> & Hq).
    eapply (sm_bind eq); [apply sm_lift; [exact We|]|].
    { rewrite (mp_min _ _ _ _ _ _ MP) by exact Hq. apply rr_refl. }
    intros x ? sf Wf <-.
    eapply sm_bind; [apply put_xs; exact Wf|]. intros _ _ sg Wg _.
    rewrite (mp_eval _ _ _ _ _ _ MP). apply (put_fs _ (Some (np_eval p1 x))); auto. intros ? [= <-]. apply LE.
  Qed.
  Lemma move_moved s : wf s -> sm (fun _ _ => True) (nt_move (N:=XR)) (nt_move (N:=XR)) s.
  Proof.
    intros W. unfold nt_move.
    eapply sm_bind; [apply sm_get; exact W|]. intros s1 s2 sa Wa [-> ->]. cbn [ns_zs ns_fs ns_step ns_left ms].
    eapply sm_bind; [apply sm_lift; [exact Wa|apply slot_moved; apply W]|]. intros z ? sb Wb (-> & Hz).
    eapply sm_bind; [apply sm_lift; [exact Wb|apply slot_moved; apply W]|]. intros f ? sc Wc (-> & Hf).
    eapply (sm_bind (fun a b => b = mv a /\ length a = k)); [apply sm_lift; [exact Wc|]|].
    { unfold nt_point. destruct (Z.eqb_spec (ns_left s) 0); [reflexivity|]. apply rr_map; [apply comb_moved; auto|]. intros a H. apply comb_len in H; auto. }
    intros z' ? sd Wd (-> & Hz'). apply put_zs; auto.
  Qed.
  Lemma report_moved s : wf s -> sm qrel (nt_report p1 v ideal nadir) (nt_report p2 v2 (mv ideal) (mv nadir)) s.
  Proof.
    intros W. pose proof WF as (_ & LI & LN & LS & LE). unfold nt_report. rewrite off_moved, start_moved.
    eapply sm_bind; [apply sm_get; exact W|]. intros s1 s2 sa Wa [-> ->]. cbn [ns_zs ns_fs ns_step ms].
    eapply sm_bind; [apply sm_lift; [exact Wa|apply slot_moved; apply W]|]. intros z ? sb Wb (-> & Hz).
    eapply sm_bind; [apply sm_lift; [exact Wb|apply bounds_moved; exact Hz]|]. intros b ? sc Wc ->.
    eapply sm_bind; [apply put_lb; exact Wc|]. intros _ _ sd Wd _.
    eapply sm_bind; [apply put_ub; exact Wd|]. intros _ _ se We _.
    eapply sm_bind; [apply sm_lift; [exact We|apply slot_moved; apply W]|]. intros f ? sf Wf (-> & Hf).
    eapply (sm_bind eq); [apply sm_lift; [exact Wf|rewrite dist_moved by assumption; apply rr_refl]|]. intros e ? sg Wg <-.
    eapply sm_bind; [apply put_ds; exact Wg|]. intros _ _ sh Wh _.
    apply sm_ret; [exact Wh|]. split; [reflexivity|exact Hz].
  Qed.
  Lemma lens_repeat n : lens (repeat None n).
  Proof. apply Forall_forall. intros o H. apply repeat_spec in H. subst. discriminate. Qed.
  Lemma om_repeat n : map om (repeat None n) = repeat None n.
  Proof. induction n; cbn; f_equal; auto. Qed.
  Lemma initial_moved d s : wf s -> sm qrel (nt_handle_initial p1 v E ideal nadir d) (nt_handle_initial p2 v2 E (mv ideal) (mv nadir) d) s.
  Proof.
    intros W. pose proof WF as (_ & LI & LN & LS & LE). unfold nt_handle_initial, nt_utopian. rewrite off_moved, start_moved.
    eapply (sm_bind eq); [apply sm_lift; [exact W|apply rr_refl]|]. intros o ? sa Wa <-.
    eapply (sm_bind eq); [apply sm_lift; [exact Wa|apply rr_refl]|]. intros n ? sb Wb <-.
    eapply sm_bind; [apply sm_mod; [constructor; apply lens_repeat|]|].
    { unfold ms. cbn [ns_step ns_n ns_left ns_zs ns_xs ns_fs ns_ds ns_lb ns_ub]. rewrite !om_repeat. reflexivity. }
    intros _ _ sc Wc _.
    eapply sm_bind; [apply sm_get; exact Wc|]. intros s1 s2 sd Wd [-> ->]. cbn [ns_step ms].
    eapply sm_bind; [apply put_zs; [exact Wd|exact LS]|]. intros _ _ se We _.
    eapply (sm_bind eq); [apply sm_lift; [exact We|apply rr_refl]|]. intros m ? sf Wf <-.
    eapply (sm_bind eq); [apply sm_lift; [exact Wf|apply rr_refl]|]. intros i ? sg Wg <-.
    eapply (sm_bind eq); [apply sm_lift; [exact Wg|]|].
    { rewrite utopian_moved, weights_moved; [apply rr_refl|exact LN|rewrite map_length; exact LI]. }
    intros w ? sh Wh <-.
    eapply sm_bind; [apply put_lb; exact Wh|]. intros _ _ si Wi _.
    eapply sm_bind; [apply put_ub; exact Wi|]. intros _ _ sj Wj _.
    eapply sm_bind; [apply solve_moved; exact Wj|]. intros _ _ sk Wk _.
    eapply sm_bind; [apply move_moved; exact Wk|]. intros _ _ sl Wl _.
    apply report_moved. exact Wl.
  Qed.
  Lemma lens_ext e l : lens l -> lens (ext e l).
  Proof. intros H. unfold lens, ext. apply Forall_app. split; [exact H|apply lens_repeat]. Qed.
  Lemma om_ext e l : ext e (map om l) = map om (ext e l).
  Proof. unfold ext. rewrite map_app, om_repeat. reflexivity. Qed.
  Lemma change_moved d s : wf s -> sm (fun _ _ => True) (nt_change v d) (nt_change v2 d) s.
  Proof.
    intros W. unfold nt_change. destruct (nd_n d) as [o|]; [|apply sm_ret; auto].
    eapply (sm_bind eq); [apply sm_lift; [exact W|apply rr_refl]|]. intros m ? sa Wa <-.
    assert (H : wf (nt_extend m sa) /\ nt_extend m (ms sa) = ms (nt_extend m sa)).
    { unfold nt_extend. cbn [ns_n ms]. destruct (ns_n sa <? m)%Z; [|auto]. split.
      - constructor; cbn; apply lens_ext; apply Wa.
      - unfold ms. cbn [ns_step ns_n ns_left ns_zs ns_xs ns_fs ns_ds ns_lb ns_ub]. rewrite !om_ext. reflexivity. }
    destruct H as [H1 H2]. apply sm_mod.
    - destruct v; constructor; cbn; apply H1.
    - rewrite H2. destruct v; reflexivity.
  Qed.
  Notation qopt := (fun o1 o2 : option (nt_request XR) => match o1, o2 with Some q1, Some q2 => qrel q1 q2 | None, None => True | _, _ => False end).
  Lemma opt_ret m1 m2 s : sm qrel m1 m2 s -> sm qopt (q <-- m1 ;; sret (Some q)) (q <-- m2 ;; sret (Some q)) s.
  Proof. intros H. eapply sm_bind; [exact H|]. intros a b s' W' Q. apply sm_ret; auto. Qed.
  Lemma at_om l i : lens l -> rr (fun a b => b = om a /\ forall u, a = Some u -> length u = k) (at_ l i) (at_ (map om l) i).
  Proof.
    intros H. rewrite at_map. destruct (at_ l i) as [o|e] eqn:E1; [|reflexivity]. split; [reflexivity|].
    apply at_ok, nth_error_In in E1. unfold lens in H. rewrite Forall_forall in H. exact (H o E1).
  Qed.
  Lemma forward_moved d s : wf s -> sm qrel (nt_forward p1 v E ideal nadir d) (nt_forward p2 v2 E (mv ideal) (mv nadir) d) s.
  Proof.
    intros W. unfold nt_forward.
    eapply sm_bind; [apply sm_mod; [constructor; cbn; apply W|reflexivity]|]. intros _ _ sa Wa _.
    eapply (sm_bind eq); [apply sm_lift; [exact Wa|apply rr_refl]|]. intros u ? sb Wb <-.
    eapply (sm_bind (fun _ _ => True)).
    - destruct (truthy u).
      + eapply sm_bind; [apply sm_get; exact Wb|]. intros s1 s2 sc Wc [-> ->]. cbn [ns_xs ns_fs ns_step ms].
        eapply (sm_bind eq); [apply sm_lift; [exact Wc|apply rr_refl]|]. intros x ? sd Wd <-.
        eapply sm_bind; [apply put_xs; exact Wd|]. intros _ _ se We _.
        eapply sm_bind; [apply sm_lift; [exact We|apply at_om; apply Wb]|]. intros f ? sf Wf (-> & Hf).
        apply put_fs; auto.
      + apply solve_moved. exact Wb.
    - intros _ _ sc Wc _. eapply sm_bind; [apply move_moved; exact Wc|]. intros _ _ sd Wd _. apply report_moved. exact Wd.
  Qed.
  Lemma half_moved s : wf s -> sm qrel (nt_half p1 v ideal nadir) (nt_half p2 v2 (mv ideal) (mv nadir)) s.
  Proof.
    intros W. unfold nt_half.
    eapply sm_bind; [apply sm_get; exact W|]. intros s1 s2 sa Wa [-> ->]. cbn [ns_zs ns_step ms].
    eapply sm_bind; [apply sm_lift; [exact Wa|apply slot_moved; apply W]|]. intros z ? sb Wb (-> & Hz).
    eapply sm_bind; [apply sm_lift; [exact Wb|apply slot_moved; apply W]|]. intros z0 ? sc Wc (-> & Hz0).
    eapply (sm_bind (fun a b => b = mv a /\ length a = k)); [apply sm_lift; [exact Wc|]|].
    { apply rr_map; [apply (comb_moved 2); auto; lia|]. intros a H. apply comb_len in H; auto. }
    intros z' ? sd Wd (-> & Hz').
    eapply sm_bind; [apply put_zs; auto|]. intros _ _ se We _. apply report_moved. exact We.
  Qed.
  Lemma handle_moved d s : wf s -> sm qopt (nt_handle p1 v E ideal nadir d) (nt_handle p2 v2 E (mv ideal) (mv nadir) d) s.
  Proof.
    intros W. unfold nt_handle.
    eapply sm_bind; [apply change_moved; exact W|]. intros _ _ sa Wa _.
    eapply sm_bind; [apply sm_get; exact Wa|]. intros s1 s2 sb Wb [-> ->]. cbn [ns_xs ns_fs ns_step ns_left ms].
    destruct (ns_left sa <=? 1)%Z.
    - eapply sm_bind; [apply sm_mod; [constructor; cbn; apply Wb|reflexivity]|]. intros _ _ sc Wc _.
      eapply (sm_bind eq); [apply sm_lift; [exact Wc|apply rr_refl]|]. intros x ? sd Wd <-.
      eapply sm_bind; [apply sm_lift; [exact Wd|apply at_om; apply Wa]|]. intros f ? se We (-> & Hf).
      apply sm_ret; [exact We|]. split; [reflexivity|exact I].
    - eapply (sm_bind eq); [apply sm_lift; [exact Wb|apply rr_refl]|]. intros b ? sc Wc <-.
      destruct (negb (truthy b)); [apply opt_ret, forward_moved; exact Wc|].
      eapply (sm_bind eq); [apply sm_lift; [exact Wc|apply rr_refl]|]. intros h ? sd Wd <-.
      destruct (truthy h); [apply opt_ret, half_moved; exact Wd|].
      eapply (sm_bind eq); [apply sm_lift; [exact Wd|apply rr_refl]|]. intros u ? se We <-.
      destruct (truthy u); [apply sm_ret; auto|].
      eapply sm_bind; [apply solve_moved; exact We|]. intros _ _ sf Wf _.
      eapply sm_bind; [apply move_moved; exact Wf|]. intros _ _ sg Wg _.
      apply opt_ret, report_moved. exact Wg.
  Qed.
  Lemma iterate_moved q1 q2 resp s : qrel q1 q2 -> wf s ->
    sm qopt (nt_iterate p1 v E ideal nadir q1 resp) (nt_iterate p2 v2 E (mv ideal) (mv nadir) q2 resp) s.
  Proof.
    intros (-> & HQ) W. destruct q1 as [|z lo hi e|x f]; cbn [nt_iterate moved_nt].
    - eapply (sm_bind eq); [apply sm_lift; [exact W|apply rr_refl]|]. intros d ? sa Wa <-. apply opt_ret, initial_moved. exact Wa.
    - eapply (sm_bind eq); [apply sm_lift; [exact W|apply rr_refl]|]. intros d ? sa Wa <-. apply handle_moved. exact Wa.
    - apply sm_ret; auto.
  Qed.
  Lemma check_moved d : nt_check_pref v2 (length (mv nadir)) d = nt_check_pref v (length nadir) d.
  Proof. rewrite moved_length. unfold nt_check_pref. destruct (nd_method d), (nd_info d); auto. destruct v; reflexivity. Qed.
  Lemma validate_moved q1 q2 d : qrel q1 q2 -> nt_validate v2 (mv nadir) q2 d = nt_validate v nadir q1 d.
  Proof.
    intros (-> & HQ). pose proof WF as (_ & LI & LN & LS & LE). destruct q1 as [|z lo hi e|x f]; cbn [nt_validate moved_nt]; rewrite ?check_moved; try reflexivity.
    rewrite array_equal_moved by assumption. reflexivity.
  Qed.

  (** Histories. *)
  Lemma shifted_inv s1 s2 qs : nt_shifted t p1 p2 v eps ideal nadir s1 s2 qs -> s2 = ms s1 /\ wf s1 /\ Forall (fun p => qrel (fst p) (snd p)) qs.
  Proof.
    induction 1 as [|s1 s2 qs q1 q2 resp s1' out1 s2' out2 H (-> & W & HQ) Hin HV E1 E2].
    - split; [reflexivity|]. split; [constructor; constructor|]. repeat constructor.
    - rewrite Forall_forall in HQ. pose proof (HQ _ Hin) as Hq. cbn [fst snd] in Hq.
      pose proof (iterate_moved q1 q2 resp s1 Hq W) as (W' & E' & R). rewrite E1, E2 in *. cbn [fst snd] in *.
      split; [exact E'|]. split; [exact W'|]. rewrite <- Forall_forall in HQ.
      destruct out1 as [[q1'|]|], out2 as [[q2'|]|]; auto.
  Qed.
  Lemma shifted_outcome s1 s2 qs q1 q2 resp : nt_shifted t p1 p2 v eps ideal nadir s1 s2 qs -> In (q1, q2) qs ->
    snd (nt_iterate p2 v2 E (mv ideal) (mv nadir) q2 resp s2) = rmap (option_map (moved_nt t)) (snd (nt_iterate p1 v E ideal nadir q1 resp s1)).
  Proof.
    intros T Hin. apply shifted_inv in T. destruct T as (-> & W & HQ). rewrite Forall_forall in HQ. pose proof (HQ _ Hin) as Hq. cbn [fst snd] in Hq.
    pose proof (iterate_moved q1 q2 resp s1 Hq W) as (_ & _ & R).
    destruct (snd (nt_iterate p1 v E ideal nadir q1 resp s1)) as [[a|]|e], (snd (nt_iterate p2 v2 E (mv ideal) (mv nadir) q2 resp (ms s1))) as [[b|]|e'];
      cbn [rr] in R; try contradiction; cbn [rmap option_map]; [destruct R as [-> _]; reflexivity|reflexivity|congruence].
  Qed.
End Sh.

(** ** The documented functions *)
Lemma asf_moved t rho w (nadir ideal f q : list XR) eps : length nadir = length t -> length ideal = length t -> length f = length t -> length q = length t ->
  rp_asf rho w (moved t nadir) (map (fun x => nsub x (Fin eps : XR)) (moved t ideal)) (moved t f) (moved t q) =
  rp_asf rho w nadir (map (fun x => nsub x (Fin eps : XR)) ideal) f q.
Proof.
  intros H1 H2 H3 H4. unfold rp_asf. rewrite utopian_moved, !(moved_bcast nsub t) by (auto using up_sub; rewrite map_length; auto). reflexivity.
Qed.
Lemma solved_moved t rho eps solve csolve eval constr x0 ideal nadir : sees_values solve -> ignores_a_constant csolve ->
  length ideal = length t -> length nadir = length t -> (forall x, length (eval x) = length t) ->
  moved_problem t eps ideal nadir (solved_by rho solve csolve eval constr x0) (solved_by rho solve csolve (fun x => moved t (eval x)) constr x0).
Proof.
  intros HS HC LI LN LE. constructor; cbn [solved_by np_eval np_x0 np_min np_ecm]; auto.
  - intros w q Hq. apply HS. intros x. unfold asf_of. apply asf_moved; auto.
  - intros i z Hi Hz. apply (HC (nth i t 0)).
    + intros x. unfold at_. rewrite moved_nth_error by apply LE. destruct (nth_error (eval x) i); reflexivity.
    + intros x. unfold slack_of. rewrite !moved_drop by auto. apply moved_bcast; [intros; apply up_sub| |];
        rewrite !drop_len by (rewrite ?LE, ?Hz; exact Hi); rewrite ?LE, ?Hz; reflexivity.
Qed.
