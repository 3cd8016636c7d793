(** * Reference Point Method: the invariant of the method object. *)
From Coq Require Import ZArith List Bool Lia.
From Verif Require Import Num Py Np Spec NpFacts MAsf MRpm SRpm.
Import ListNotations.

Lemma bc_len {A B C} (f : A -> B -> C) a b : length a = length b -> bcast2 f a b = Ok (zipw f a b) /\ length (zipw f a b) = length a.
Proof. intros H. split; [apply bcast2_eq; auto|]. rewrite zipw_length. lia. Qed.
Lemma rseq_err {A B} (f : A -> res B) l e : rseq (map f l) = Raise e -> exists a, In a l /\ f a = Raise e.
Proof.
  induction l as [|a l IH]; cbn; [discriminate|]. destruct (f a) as [b|e'] eqn:E; [|intros H; exists a; split; [auto|congruence]].
  destruct (rseq (map f l)) as [v|e'] eqn:E'; cbn; [discriminate|]. intros H. injection H as ->. destruct (IH eq_refl) as (x & Hx & Hf). eauto.
Qed.
Lemma bcast_err {A B C} (f : A -> B -> C) a b e : bcast2 f a b = Raise e -> e = ValueErr.
Proof.
  unfold bcast2. destruct (Nat.eqb _ _); [discriminate|]. destruct a as [|x [|x' a]], b as [|y [|y' b]]; intros H; try discriminate; congruence.
Qed.

Definition opt_rel {A B} (R : A -> B -> Prop) (a : option A) (b : option B) : Prop :=
  match a, b with Some x, Some y => R x y | None, None => True | _, _ => False end.
Lemma set_F2 {A B} (R : A -> B -> Prop) l1 l2 i x y l1' l2' :
  Forall2 R l1 l2 -> R x y -> set_nth l1 i x = Some l1' -> set_nth l2 i y = Some l2' -> Forall2 R l1' l2'.
Proof.
  intros H. revert i l1' l2'. induction H as [|a b l1 l2 Hab H IH]; intros i l1' l2' Hxy; [destruct i; discriminate|].
  destruct i; cbn; [intros E1 E2; injection E1 as <-; injection E2 as <-; auto|].
  destruct (set_nth l1 i x) eqn:E1, (set_nth l2 i y) eqn:E2; try discriminate. intros H1 H2. injection H1 as <-. injection H2 as <-. constructor; eauto.
Qed.
Lemma F2_grow {A B} (R : A -> B -> Prop) l1 l2 n : Forall2 (opt_rel R) l1 l2 -> Forall2 (opt_rel R) (l1 ++ repeat None n) (l2 ++ repeat None n).
Proof. intros H. apply Forall2_app; auto. clear. induction n; cbn; constructor; cbn; auto. Qed.

Section Inv.
  Context {N : NumOps} (L : OrdLaws N) (p : rp_problem N) (rho eps : N) (k : nat) (ideal nadir : list N).
  Notation vec := (list N).
  Notation mat := (list (list N)).
  Context (WF : rp_wf k p ideal nadir).

  Lemma disc_ok (w nd ut : vec) objs q i : rp_disc rho w nd ut objs q = Ok i ->
    exists f v, nth_error objs i = Some f /\ rp_asf rho w nd ut f q = Ok v /\ nisnan v = false /\
      forall g v', In g objs -> rp_asf rho w nd ut g q = Ok v' -> nisnan v' = false -> nleb v v' = true.
  Proof.
    unfold rp_disc. intros H. apply rbind_ok in H as (vals & Hv & H). apply rseq_map_ok in Hv.
    apply (npnanargmin_ok L) in H as (v & Hi & Hn & Hm). destruct (Forall2_nth_r _ _ _ _ _ Hv Hi) as (f & Hf & Ef).
    exists f, v. repeat split; auto. intros g v' Hg Eg Hn'. destruct (In_nth_error _ _ Hg) as (j & Hj).
    destruct (Forall2_nth_l _ _ _ _ _ Hv Hj) as (v2 & Hv2 & E2). assert (v2 = v') by congruence. subst. apply (Hm _ _ Hv2 Hn').
  Qed.
  Lemma asf_err (w nd ut : vec) f q e : rp_asf rho w nd ut f q = Raise e -> e = ValueErr.
  Proof.
    unfold rp_asf. intros H. repeat match type of H with
    | rbind (bcast2 ?g ?a ?b) _ = _ => let E := fresh in destruct (bcast2 g a b) eqn:E; cbn [rbind] in H; [|injection H as ->; eapply bcast_err; eauto]
    | rbind (npmax ?a) _ = _ => destruct a; cbn [npmax rbind] in H; [congruence|]
    end. discriminate.
  Qed.

  (** ** solving *)
  Lemma solve_ok (w ut q : vec) x0 r : rp_x0 p = Ok x0 -> rp_solve p rho w nadir ut q x0 = Ok r ->
    rp_solves p rho w nadir ut q (fst r) (snd r) /\ rp_matches p (fst r) (snd r) /\ length (snd r) = k.
  Proof.
    destruct WF as (_ & _ & _ & W). destruct p as [ev co x0' mi|objs decs]; cbn [rp_x0 rp_solve]; intros H0 H.
    - injection H0 as <-. apply rbind_ok in H as (x & Hx & H). injection H as <-. cbn. auto.
    - apply rbind_ok in H as (i & Hi & H). apply rbind_ok in H as (x & Hx & H). apply rbind_ok in H as (f & Hf & H). injection H as <-.
      apply at_ok in Hx, Hf. destruct (disc_ok _ _ _ _ _ _ Hi) as (f' & v & Hf' & Ev & Hn & Hm). assert (f' = f) by congruence. subst.
      cbn [rp_solves rp_matches fst snd]. split; [exists i, v; repeat split; auto|]. split; [eauto|]. destruct W as (W & _). unfold is_matrix in W. rewrite Forall_forall in W. apply W. eapply nth_error_In; eauto.
  Qed.
  Lemma solve_err (w ut q : vec) x0 e : rp_no_index_errors p -> rp_solve p rho w nadir ut q x0 = Raise e -> e <> IndexErr.
  Proof.
    destruct WF as (_ & _ & _ & W). destruct p as [ev co x0' mi|objs decs]; cbn [rp_solve]; intros HI H.
    - destruct (mi w nadir ut q x0) eqn:E; [discriminate|]. cbn in H. injection H as ->. intros ->. exact (HI _ _ _ _ _ E).
    - destruct (rp_disc rho w nadir ut objs q) as [i|e'] eqn:E; cbn [rbind] in H.
      + destruct (disc_ok _ _ _ _ _ _ E) as (f & v & Hf & _). destruct W as (_ & W & _).
        assert (Hi : i < length objs) by (apply nth_error_Some; congruence).
        destruct (nth_error decs i) as [x|] eqn:Ex; [|apply nth_error_None in Ex; lia].
        unfold at_ in H. rewrite Ex, Hf in H. discriminate.
      + injection H as ->. unfold rp_disc in E. destruct (rseq _) as [vals|e'] eqn:E1; cbn [rbind] in E.
        * apply npnanargmin_err in E. congruence.
        * injection E as ->. apply rseq_err in E1 as (f & _ & E1). apply asf_err in E1. congruence.
  Qed.
  Lemma x0_ok : exists x0, rp_x0 p = Ok x0.
  Proof.
    destruct WF as (_ & _ & _ & W). destruct p as [ev co x0' mi|objs decs]; cbn; [eauto|]. destruct W as (_ & W & W').
    destruct decs; [destruct objs; [congruence|discriminate]|]. cbn. eauto.
  Qed.
  Lemma prp_ok (q f : vec) : length q = k -> length f = k -> exists pq, rp_prp q f = Ok pq /\ rp_perturbed q (vnorm (vsub q f)) pq /\ length pq = k.
  Proof.
    intros Hq Hf. unfold rp_prp. rewrite bcast2_eq by congruence. cbn [rbind].
    assert (H : forall i, bcast2 nadd q (vscale (vnorm (zipw nsub q f)) (unit_row (length q) i)) = Ok (zipw nadd q (vscale (vnorm (zipw nsub q f)) (unit_row (length q) i)))).
    { intros i. apply bcast2_eq. unfold vscale, unit_row. rewrite !map_length, seq_length. reflexivity. }
    rewrite (rseq_map_ext _ (fun i => Ok (zipw nadd q (vscale (vnorm (zipw nsub q f)) (unit_row (length q) i))))) by (intros; apply H).
    rewrite map_rseq_ok. eexists. split; [reflexivity|]. split; [|rewrite map_length, seq_length; auto].
    split; [rewrite map_length, seq_length; auto|]. intros i pq E. rewrite nth_error_map in E.
    destruct (nth_error (seq 0 (length q)) i) as [i'|] eqn:Ei; [|discriminate]. cbn in E. injection E as <-.
    assert (Li : i < length q) by (rewrite <- (seq_length (length q) 0); apply nth_error_Some; congruence).
    rewrite (nth_error_nth' _ 0), seq_nth in Ei by (rewrite ?seq_length; lia). injection Ei as <-.
    split; [rewrite zipw_length; unfold vscale, unit_row; rewrite !map_length, seq_length; lia|].
    intros j y Hj. assert (Lj : j < length q) by (apply nth_error_Some; congruence).
    assert (G : forall (a b : vec) j x z, nth_error a j = Some x -> nth_error b j = Some z -> nth_error (zipw nadd a b) j = Some (nadd x z)).
    { clear. induction a as [|x0 a IH]; intros b j x z; [destruct j; discriminate|]. destruct b as [|z0 b]; [destruct j; discriminate|].
      destruct j; cbn; [congruence|eauto]. }
    erewrite G; [reflexivity|exact Hj|]. unfold vscale, unit_row. rewrite !nth_error_map, (nth_error_nth' _ 0) by (rewrite seq_length; auto).
    rewrite seq_nth by auto. cbn. reflexivity.
  Qed.

  (** ** the invariant *)
  Record rp_inv (s : rp_state N) : Prop := {
    ri_h : 1 <= rs_h s;
    ri_qs : rs_h s + 2 < length (rs_qs s);
    ri_xs : length (rs_xs s) = length (rs_qs s);
    ri_pqs : length (rs_pqs s) = length (rs_qs s);
    ri_axs : length (rs_axs s) = length (rs_qs s);
    ri_f : Forall2 (opt_rel (fun x f => rp_matches p x f /\ length f = k)) (rs_xs s) (rs_fs s);
    ri_af : Forall2 (opt_rel (fun ax af => Forall2 (rp_matches p) ax af /\ length af = k)) (rs_axs s) (rs_afs s);
    ri_new : forall i, rs_h s < i < length (rs_xs s) -> nth_error (rs_xs s) i = Some None }.
  Definition req_ok (q : rp_request N) : Prop :=
    match q with
    | RInit => True
    | RReq f af => length f = k /\ length af = k
    | RStop x f => opt_rel (rp_matches p) x f
    end.

  Lemma inv_init : rp_inv rp_init.
  Proof.
    constructor; cbn [rp_init rs_h rs_qs rs_xs rs_fs rs_pqs rs_axs rs_afs]; try reflexivity; try (cbn; lia).
    - repeat constructor.
    - repeat constructor.
    - intros i [H1 H2]. cbn in H2. do 10 (destruct i; [reflexivity|]). lia.
  Qed.
  Lemma inv_grow s : rp_inv s -> rp_inv (rp_grow (w_h s (S (rs_h s)))) /\ rs_h (rp_grow (w_h s (S (rs_h s)))) = S (rs_h s).
  Proof.
    intros [I1 I2 I3 I4 I5 I6 I7 I8]. unfold rp_grow, w_h. cbn [rs_h rs_qs rs_xs rs_fs rs_pqs rs_axs rs_afs rs_q rs_w].
    destruct (Nat.leb_spec (length (rs_qs s)) (S (rs_h s) + 2)) as [E|E]; (split; [|reflexivity]); constructor;
      cbn [rs_h rs_qs rs_xs rs_fs rs_pqs rs_axs rs_afs rs_q rs_w]; unfold grow; rewrite ?app_length, ?repeat_length; auto; try lia.
    - apply F2_grow. auto.
    - apply F2_grow. auto.
    - intros i Hi. destruct (Nat.lt_ge_cases i (length (rs_xs s))) as [G|G].
      + rewrite nth_error_app1 by auto. apply I8. lia.
      + rewrite nth_error_app2 by auto. rewrite (nth_error_nth' _ None) by (rewrite repeat_length; lia). f_equal. apply nth_repeat.
    - intros i Hi. apply I8. lia.
  Qed.

  Lemma bind_lift_ok {S A B} (a : A) (f : A -> SE S B) s : sbind (lift (Ok a)) f s = f a s.
  Proof. reflexivity. Qed.
  Lemma bind_lift_err {S A B} e (f : A -> SE S B) s : sbind (lift (Raise e)) f s = (s, Raise e).
  Proof. reflexivity. Qed.
  Lemma bind_mod {S B} (g : S -> S) (f : unit -> SE S B) s : sbind (smod g) f s = f tt (g s).
  Proof. reflexivity. Qed.
  Lemma bind_put {A B} get put (v : A) (f : unit -> SE (rp_state N) B) s l : set_ (get s) (rs_h s) v = Ok l -> sbind (sput get put v) f s = f tt (put s l).
  Proof. intros H. unfold sput, sbind, sget, lift, smod. rewrite H. reflexivity. Qed.
  Lemma put_qs {B} v (f : unit -> SE (rp_state N) B) h qs xs fs pqs axs afs q w l : set_ qs h v = Ok l ->
    sbind (sput rs_qs w_qs v) f (MkRS h qs xs fs pqs axs afs q w) = f tt (MkRS h l xs fs pqs axs afs q w).
  Proof. intros H. exact (bind_put rs_qs w_qs v f (MkRS h qs xs fs pqs axs afs q w) l H). Qed.
  Lemma put_xs {B} v (f : unit -> SE (rp_state N) B) h qs xs fs pqs axs afs q w l : set_ xs h v = Ok l ->
    sbind (sput rs_xs w_xs v) f (MkRS h qs xs fs pqs axs afs q w) = f tt (MkRS h qs l fs pqs axs afs q w).
  Proof. intros H. exact (bind_put rs_xs w_xs v f (MkRS h qs xs fs pqs axs afs q w) l H). Qed.
  Lemma put_fs {B} v (f : unit -> SE (rp_state N) B) h qs xs fs pqs axs afs q w l : set_ fs h v = Ok l ->
    sbind (sput rs_fs w_fs v) f (MkRS h qs xs fs pqs axs afs q w) = f tt (MkRS h qs xs l pqs axs afs q w).
  Proof. intros H. exact (bind_put rs_fs w_fs v f (MkRS h qs xs fs pqs axs afs q w) l H). Qed.
  Lemma put_pqs {B} v (f : unit -> SE (rp_state N) B) h qs xs fs pqs axs afs q w l : set_ pqs h v = Ok l ->
    sbind (sput rs_pqs w_pqs v) f (MkRS h qs xs fs pqs axs afs q w) = f tt (MkRS h qs xs fs l axs afs q w).
  Proof. intros H. exact (bind_put rs_pqs w_pqs v f (MkRS h qs xs fs pqs axs afs q w) l H). Qed.
  Lemma put_axs {B} v (f : unit -> SE (rp_state N) B) h qs xs fs pqs axs afs q w l : set_ axs h v = Ok l ->
    sbind (sput rs_axs w_axs v) f (MkRS h qs xs fs pqs axs afs q w) = f tt (MkRS h qs xs fs pqs l afs q w).
  Proof. intros H. exact (bind_put rs_axs w_axs v f (MkRS h qs xs fs pqs axs afs q w) l H). Qed.
  Lemma put_afs {B} v (f : unit -> SE (rp_state N) B) h qs xs fs pqs axs afs q w l : set_ afs h v = Ok l ->
    sbind (sput rs_afs w_afs v) f (MkRS h qs xs fs pqs axs afs q w) = f tt (MkRS h qs xs fs pqs axs l q w).
  Proof. intros H. exact (bind_put rs_afs w_afs v f (MkRS h qs xs fs pqs axs afs q w) l H). Qed.
  Lemma put_q {B} v (f : unit -> SE (rp_state N) B) h qs xs fs pqs axs afs q w : sbind (smod (fun s => w_q s v)) f (MkRS h qs xs fs pqs axs afs q w) = f tt (MkRS h qs xs fs pqs axs afs v w).
  Proof. reflexivity. Qed.
  Lemma put_w {B} v (f : unit -> SE (rp_state N) B) h qs xs fs pqs axs afs q w : sbind (smod (fun s => w_w s v)) f (MkRS h qs xs fs pqs axs afs q w) = f tt (MkRS h qs xs fs pqs axs afs q v).
  Proof. reflexivity. Qed.

  Definition past_kept (s s' : rp_state N) : Prop :=
    rs_h s' = rs_h s /\
    forall i, i <> rs_h s -> nth_error (rs_xs s') i = nth_error (rs_xs s) i /\ nth_error (rs_fs s') i = nth_error (rs_fs s) i /\
      nth_error (rs_axs s') i = nth_error (rs_axs s) i /\ nth_error (rs_afs s') i = nth_error (rs_afs s) i.

  (** What one iteration does. *)
  Lemma round_spec s q s' out : rp_inv s -> length q = k -> rp_round p rho eps ideal nadir (RArr q) s = (s', out) ->
    let ut := rp_utopian ideal eps in
    rp_inv s' /\ past_kept s s' /\
    exists w, bcast2 ndiv q (zipw nsub ut nadir) = Ok w /\
    ((exists e x0, out = Raise e /\ rp_x0 p = Ok x0 /\ (exists q', rp_solve p rho w nadir ut q' x0 = Raise e /\
          (q' = q \/ exists x f pq, rp_solve p rho w nadir ut q x0 = Ok (x, f) /\ rp_prp q f = Ok pq /\ In q' pq)) /\
        (rp_solve p rho w nadir ut q x0 = Raise e -> rs_xs s' = rs_xs s /\ rs_fs s' = rs_fs s)) \/
     (exists x0 x f pq rs, rp_x0 p = Ok x0 /\ rp_solve p rho w nadir ut q x0 = Ok (x, f) /\ rp_prp q f = Ok pq /\
        Forall2 (fun pqi r => rp_solve p rho w nadir ut pqi x0 = Ok r) pq rs /\ out = Ok (RReq f (map snd rs)) /\
        nth_error (rs_xs s') (rs_h s) = Some (Some x) /\ nth_error (rs_fs s') (rs_h s) = Some (Some f) /\
        nth_error (rs_axs s') (rs_h s) = Some (Some (map fst rs)) /\ nth_error (rs_afs s') (rs_h s) = Some (Some (map snd rs)))).
  Proof.
    intros I Hq H ut. destruct I as [I1 I2 I3 I4 I5 I6 I7 I8].
    destruct s as [h qs xs fs pqs axs afs q0 w0]. cbn [rs_h rs_qs rs_xs rs_fs rs_pqs rs_axs rs_afs rs_q rs_w] in *. destruct WF as (_ & Wi & Wn & _).
    assert (Lf : length fs = length xs) by (symmetry; eapply Forall2_len; eauto).
    assert (Laf : length afs = length axs) by (symmetry; eapply Forall2_len; eauto).
    unfold rp_round in H. rewrite bind_lift_ok in H. cbv beta in H.
    destruct (set_ok qs h (Some q)) as (qs' & Eq & Sq); [lia|]. rewrite (put_qs _ _ _ _ _ _ _ _ _ _ _ _ Eq) in H. cbv beta in H. rewrite put_q in H. cbv beta in H.
    assert (Lut : length (rp_utopian ideal eps) = length nadir) by (unfold rp_utopian; rewrite map_length; congruence).
    destruct (bc_len nsub (rp_utopian ideal eps) nadir Lut) as [Eden Lden]. rewrite Eden, bind_lift_ok in H. cbv beta in H.
    destruct (bc_len ndiv q (zipw nsub (rp_utopian ideal eps) nadir)) as [Ew Lw]; [rewrite Lden; congruence|]. rewrite Ew, bind_lift_ok in H. cbv beta in H. rewrite put_w in H. cbv beta in H. fold ut in Ew, H. set (w := zipw ndiv q (zipw nsub ut nadir)) in *.
    destruct x0_ok as (x0 & Ex0). rewrite Ex0, bind_lift_ok in H. cbv beta in H.
    pose proof (set_nth_length _ _ _ _ Sq) as Lqs.
    assert (INV0 : forall wq pq', length pq' = length qs -> rp_inv (MkRS h qs' xs fs pq' axs afs wq w)).
    { intros wq pq' Lpq. constructor; cbn [rs_h rs_qs rs_xs rs_fs rs_pqs rs_axs rs_afs rs_q rs_w]; auto; try lia. }
    destruct (rp_solve p rho w nadir ut q x0) as [[x f]|e] eqn:Es.
    2:{ rewrite bind_lift_err in H. injection H as <- <-. split; [apply INV0; auto|]. split; [split; [reflexivity|]; intros i _; auto|]. exists w. split; [exact Ew|].
        left. exists e, x0. split; auto. split; auto. split; [exists q; auto|]. auto. }
    destruct (solve_ok _ _ _ _ _ Ex0 Es) as (S1 & S2 & S3). rewrite bind_lift_ok in H. cbn [fst snd] in *. cbv beta in H.
    destruct (set_ok xs h (Some x)) as (xs' & Exs & Sxs); [lia|]. rewrite (put_xs _ _ _ _ _ _ _ _ _ _ _ _ Exs) in H. cbv beta in H.
    destruct (set_ok fs h (Some f)) as (fs' & Efs & Sfs); [lia|]. rewrite (put_fs _ _ _ _ _ _ _ _ _ _ _ _ Efs) in H. cbv beta in H.
    destruct (prp_ok q f Hq S3) as (pq & Epq & Hpq & Lpq). rewrite Epq, bind_lift_ok in H. cbv beta in H.
    destruct (set_ok pqs h (Some pq)) as (pqs' & Epqs & Spqs); [lia|]. rewrite (put_pqs _ _ _ _ _ _ _ _ _ _ _ _ Epqs) in H. cbv beta in H.
    pose proof (set_nth_length _ _ _ _ Sxs) as Lxs. pose proof (set_nth_length _ _ _ _ Sfs) as Lfs. pose proof (set_nth_length _ _ _ _ Spqs) as Lpqs.
    assert (INV1 : forall wq ax' af', length ax' = length qs ->
      Forall2 (opt_rel (fun ax af => Forall2 (rp_matches p) ax af /\ length af = k)) ax' af' ->
      rp_inv (MkRS h qs' xs' fs' pqs' ax' af' wq w)).
    { intros wq ax' af' La Fa. constructor; cbn [rs_h rs_qs rs_xs rs_fs rs_pqs rs_axs rs_afs rs_q rs_w]; auto; try lia.
      - eapply set_F2; eauto. cbn. auto.
      - intros i Hi. rewrite (set_nth_get_other _ _ i _ _ Sxs) by lia. apply I8. lia. }
    destruct (rseq (map (fun pqi => rp_solve p rho w nadir ut pqi x0) pq)) as [rs|e] eqn:Ers.
    2:{ rewrite bind_lift_err in H. injection H as <- <-. split; [apply INV1; auto|].
        split. { split; [reflexivity|]. intros i Hi. cbn. rewrite (set_nth_get_other _ _ i _ _ Sxs), (set_nth_get_other _ _ i _ _ Sfs) by auto. auto. }
        exists w. split; [exact Ew|]. left. apply rseq_err in Ers as (q' & Iq & Ers). exists e, x0. split; auto. split; auto. split; [exists q'; split; auto; right; exists x, f, pq; auto|]. congruence. }
    rewrite bind_lift_ok in H. cbv beta in H. apply rseq_map_ok in Ers.
    destruct (set_ok axs h (Some (map fst rs))) as (axs' & Eaxs & Saxs); [lia|]. rewrite (put_axs _ _ _ _ _ _ _ _ _ _ _ _ Eaxs) in H. cbv beta in H.
    destruct (set_ok afs h (Some (map snd rs))) as (afs' & Eafs & Safs); [lia|]. rewrite (put_afs _ _ _ _ _ _ _ _ _ _ _ _ Eafs) in H. cbv beta in H.
    injection H as <- <-. pose proof (set_nth_length _ _ _ _ Saxs) as Laxs.
    split.
    { apply INV1; [congruence|]. eapply set_F2; eauto. cbn. split.
      - clear - L WF Ers Ex0. induction Ers as [|pqi r pq rs Hr Ers IH]; cbn; constructor; auto. apply (solve_ok _ _ _ _ _ Ex0 Hr).
      - rewrite map_length. apply Forall2_len in Ers. congruence. }
    split.
    { split; [reflexivity|]. intros i Hi. cbn.
      rewrite (set_nth_get_other _ _ i _ _ Sxs), (set_nth_get_other _ _ i _ _ Sfs), (set_nth_get_other _ _ i _ _ Saxs), (set_nth_get_other _ _ i _ _ Safs) by auto. auto. }
    exists w. split; [exact Ew|]. right. exists x0, x, f, pq, rs. repeat split; auto; cbn; eapply set_nth_get_same; eauto.
  Qed.
End Inv.
