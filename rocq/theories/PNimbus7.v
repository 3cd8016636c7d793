(** * NIMBUS: instances, intermediate solutions, demonstration sessions. *)
From Coq Require Import ZArith List Bool Lia Reals Lra Floats.
From Verif Require Import Num NumXR NumF64 F64Facts Py Np Spec NpFacts XRFacts MNimbus SNimbus PNimbus PNimbus2 PNimbus3 PNimbus4 PNimbus5 PNimbus6.
Import ListNotations.

Definition xfin (x : XR) : Prop := exists r, x = Fin r.
Definition ffin (x : F64) : Prop := PrimFloat.is_finite x = true.

Lemma XR_sign_exact : sign_exact (N:=XR) xfin.
Proof.
  split.
  - intros x y [a ->] [b ->]. change (rleb (IZR 0) (b - a) = rleb a b). unfold rleb.
    destruct (Rle_dec (IZR 0) (b - a)), (Rle_dec a b); auto; lra.
  - intros x [a ->]. apply xisnan_fin.
Qed.
Lemma F64_sign_exact : sign_exact (N:=F64) ffin.
Proof.
  split.
  - intros x y. apply f64_sub_nonneg.
  - intros x H. unfold ffin in H. destruct (@nisnan F64 x) eqn:E; auto. exfalso. apply f64_isnan in E.
    change (PrimFloat.is_finite x = true) in H. unfold PrimFloat.is_finite in H. apply negb_true_iff in H. apply orb_false_iff in H as [H _].
    unfold PrimFloat.is_nan in H. apply negb_false_iff in H. rewrite FloatAxioms.eqb_spec, E in H. discriminate.
Qed.

Section Inter.
  Context {N : NumOps} (L : OrdLaws N).
  Notation vec := (list N).
  Notation mat := (list (list N)).
  Variables (av : @asf_val N) (p : nb_problem N) (ideal nadir : vec).

  Lemma project_projected cs pt r :
    match p with
    | PMO _ evaluate co minimize =>
        do r <- minimize (APoint nadir ideal) (evaluate pt) (option_map (fun c => fun x => Ok (c x)) co) cs;
        Ok (fst r, evaluate (fst r))
    | PDisc _ objs decs closest =>
        do ref <- at_ objs (closest pt);
        do i <- disc_minimize av (APoint nadir ideal) ref objs None;
        do x <- at_ decs i; do f <- at_ objs i; Ok (x, f)
    end = Ok r -> projected av p ideal nadir cs pt (fst r) (snd r).
  Proof.
    unfold projected. destruct p as [k ev co mi|k objs decs fc]; intros H.
    - apply rbind_ok in H as ([y b] & Hy & H). injection H as <-. cbn [fst snd] in *. split; auto. eexists _, b. split; [exact Hy|].
      destruct co as [c|]; cbn; auto. intros y'. eexists. split; [reflexivity|]. tauto.
    - apply rbind_ok in H as (rf & Hr & H). apply rbind_ok in H as (i & Hi & H). apply rbind_ok in H as (x & Hx & H). apply rbind_ok in H as (f & Hf & H).
      injection H as <-. apply at_ok in Hr, Hx, Hf. cbn [fst snd]. exists rf. split; auto.
      destruct (disc_free L _ _ _ _ _ Hi) as (f' & v & Hf' & Hav & Hn & Hmin). assert (f' = f) by congruence. subst f'.
      exists i, v. repeat split; auto. intros j g w Hg _ Hw Hnw. eapply Hmin; eauto.
  Qed.

  Lemma rows_head (sols : mat) z1 z2 ix s0 s1 : ztake sols (z1 :: z2 :: ix) = Ok s0 ->
    nth_error s0 0 = Some s1 -> (0 <= z1)%Z -> nth_error sols (Z.to_nat z1) = Some s1.
  Proof.
    unfold ztake. intros H H0 Hz. apply rseq_map_ok in H. inversion H as [|? a ? ? Ha H']; subst. cbn in H0. injection H0 as <-.
    rewrite py_nth_nonneg in Ha by auto. apply at_ok in Ha. auto.
  Qed.

  (** A successful intermediate step with two chosen solutions. *)
  Lemma handle_inter_spec s sols objs d q z1 z2 ix n x1 x2 pts :
    bd_indices d = Some (z1 :: z2 :: ix) -> bd_ndes d = Some (VInt n) -> (0 <= z1)%Z -> (0 <= z2)%Z ->
    nth_error sols (Z.to_nat z1) = Some x1 -> nth_error sols (Z.to_nat z2) = Some x2 ->
    nb_between x1 x2 (Z.to_nat n) = Ok pts ->
    nb_handle_inter av p ideal nadir s sols objs d = Ok q ->
    exists sols' objs', q = QSave sols' objs' /\ length sols' = length pts /\ length objs' = length pts /\
      forall t pt x g, nth_error pts t = Some pt -> nth_error sols' t = Some x -> nth_error objs' t = Some g ->
        projected av p ideal nadir (bs_sol s) pt x g.
  Proof.
    intros Hix Hnd Hz1 Hz2 E1 E2 Hp. unfold nb_handle_inter. rewrite Hix. cbn [key rbind length Nat.ltb Nat.leb]. intros H.
    apply rbind_ok in H as (sel & Hsel & H). rewrite Hnd in H. cbn [key rbind py_toint py_int] in H.
    unfold ztake in Hsel. apply rseq_map_ok in Hsel. inversion Hsel as [|? a ? ? Ha Hsel1]; subst. inversion Hsel1 as [|? b ? sel' Hb Hsel2]; subst.
    rewrite py_nth_nonneg in Ha, Hb by auto. apply at_ok in Ha, Hb. assert (a = x1) by congruence. assert (b = x2) by congruence. subst a b.
    unfold nb_intermediate in H. cbn [at_ nth_error rbind] in H. rewrite Hp in H. cbn [rbind] in H.
    apply rbind_ok in H as (rs & Hrs & H). injection H as <-. apply rseq_map_ok in Hrs.
    pose proof (F2len _ _ _ Hrs) as Hl. exists (map fst rs), (map snd rs). rewrite !map_length. repeat (split; [auto|]).
    intros t pt x g Ht Hx Hg. rewrite nth_error_map in Hx, Hg. destruct (nth_error rs t) as [r|] eqn:Er; [|discriminate].
    cbn in Hx, Hg. injection Hx as <-. injection Hg as <-. destruct (Forall2_nth _ _ _ _ _ Hrs Er) as (pt' & Hpt & G).
    assert (pt' = pt) by congruence. subst. apply project_projected in G. exact G.
  Qed.

  (** One index: the handler indexes the second selected solution. *)
  Lemma handle_inter_one s sols objs d z nd n x : bd_indices d = Some [z] -> (0 <= z)%Z -> nth_error sols (Z.to_nat z) = Some x ->
    bd_ndes d = Some nd -> py_toint nd = Ok n -> nb_handle_inter av p ideal nadir s sols objs d = Raise IndexErr.
  Proof.
    intros Hix Hz Hx Hnd Hn. unfold nb_handle_inter. rewrite Hix. cbn [key rbind length Nat.ltb Nat.leb ztake map rseq].
    unfold ztake. cbn [map]. rewrite py_nth_nonneg by auto. rewrite (proj2 (at_ok _ _ _) Hx). cbn [rseq rmap rbind]. rewrite Hnd. cbn [key rbind]. rewrite Hn. reflexivity.
  Qed.

  Lemma rbind_idx {A B} (r : res A) (f : A -> res B) : r <> Raise IndexErr -> (forall a, r = Ok a -> f a <> Raise IndexErr) -> rbind r f <> Raise IndexErr.
  Proof. destruct r; cbn; intros H1 H2; auto. intros E. apply H1. congruence. Qed.
  Lemma disc_idx a ref objs : (forall a row ref, av a row ref <> Raise IndexErr) -> disc_minimize av a ref objs None <> Raise IndexErr.
  Proof.
    intros H. unfold disc_minimize. cbn [rbind]. apply rbind_idx.
    - intros E. apply rseq_map_err in E as (row & _ & E). eapply H; eauto.
    - intros v _ E. apply npnanargmin_err in E. discriminate.
  Qed.
  Lemma bcast_idx {A B C} (f : A -> B -> C) a b : bcast2 f a b <> Raise IndexErr.
  Proof. unfold bcast2. destruct (Nat.eqb _ _); [discriminate|]. destruct a as [|? []], b as [|? []]; discriminate. Qed.
  Lemma handle_inter_idx s sols objs d ix : no_index_errors av p -> bd_indices d = Some ix -> length ix <> 1 ->
    Forall (fun z => (0 <= z < Z.of_nat (length sols))%Z) ix -> bd_ndes d <> None ->
    nb_handle_inter av p ideal nadir s sols objs d <> Raise IndexErr.
  Proof.
    intros HI Hix H1 Hr Hnd. unfold nb_handle_inter. rewrite Hix. cbn [key rbind]. destruct (Nat.ltb_spec 0 (length ix)) as [L0|L0]; [|discriminate].
    destruct (ztake_total sols ix Hr) as (sel & Hsel). rewrite Hsel. cbn [rbind].
    assert (Hl : 2 <= length sel).
    { unfold ztake in Hsel. apply rseq_map_ok in Hsel. apply F2len in Hsel. lia. }
    apply rbind_idx; [destruct (bd_ndes d); [discriminate|congruence]|]. intros nv _.
    apply rbind_idx; [unfold py_toint; destruct (py_int nv); [discriminate|destruct nv; discriminate]|]. intros n _.
    unfold nb_intermediate. destruct sel as [|x1 [|x2 sel]]; cbn in Hl; try lia. cbn [at_ nth_error rbind].
    apply rbind_idx.
    { unfold nb_between. apply rbind_idx; [apply bcast_idx|]. intros b _ E. apply rseq_map_err in E as (i & _ & E). eapply bcast_idx; eauto. }
    intros pts _. apply rbind_idx; [|discriminate]. intros E. apply rseq_map_err in E as (pt & _ & E). revert E.
    unfold no_index_errors in HI. destruct p as [k ev co mi|k ob decs fc].
    - apply rbind_idx; [apply HI|]. discriminate.
    - destruct HI as (A1 & A2 & A3). specialize (A2 pt). unfold at_ at 1. destruct (nth_error ob (fc pt)) as [rf|] eqn:Er; [|apply nth_error_None in Er; lia].
      cbn [rbind]. apply rbind_idx; [apply disc_idx; auto|]. intros i Hi. destruct (disc_free L _ _ _ _ _ Hi) as (f & v & Hf & _).
      assert (Li : i < length decs) by (rewrite A3; apply nth_error_Some; congruence).
      unfold at_. destruct (nth_error decs i) eqn:Ed; [|apply nth_error_None in Ed; lia]. rewrite Hf. discriminate.
  Qed.

  (** ** Sessions that follow a list of answers *)
  Fixpoint nb_play (ds : list (nb_dict N)) (s : nb_state N) (q : nb_request N) (qs : list (nb_request N))
    : option (nb_state N * nb_request N * list (nb_request N)) :=
    match ds with
    | [] => Some (s, q, qs)
    | d :: ds' =>
        match nb_validate p ideal nadir q d with
        | Ok _ => match nb_iterate av p ideal nadir q (Some d) s with
                  | (s', Ok q') => nb_play ds' s' q' (q' :: qs)
                  | _ => None
                  end
        | _ => None
        end
    end.
  Lemma play_reach s0 ds : forall s q qs r, nb_reach av p ideal nadir s0 s qs -> In q qs -> nb_play ds s q qs = Some r ->
    nb_reach av p ideal nadir s0 (fst (fst r)) (snd r) /\ In (snd (fst r)) (snd r).
  Proof.
    induction ds as [|d ds IH]; intros s q qs r HR Hin H; cbn [nb_play] in H.
    - injection H as <-. auto.
    - destruct (nb_validate p ideal nadir q d) as [[]|] eqn:EV; [|discriminate].
      destruct (nb_iterate av p ideal nadir q (Some d) s) as [s' [q'|]] eqn:EI; [|discriminate].
      apply (IH s' q' (q' :: qs) r); [|left; reflexivity|exact H].
      apply (nb_reach_step av p ideal nadir s0 s qs q (Some d) s' (Ok q')); auto. intros d' E. injection E as <-. auto.
  Qed.
  Definition nb_demo (start : option vec) (x0 : vec) (ds : list (nb_dict N)) : option (nb_state N * nb_request N * list (nb_request N)) :=
    match nb_init av p ideal nadir start x0 with
    | Ok s0 => nb_play ds s0 (nb_start s0) [nb_start s0]
    | Raise _ => None
    end.
  Lemma demo_reach start x0 ds r : nb_demo start x0 ds = Some r ->
    exists s0, nb_init av p ideal nadir start x0 = Ok s0 /\ nb_reach av p ideal nadir s0 (fst (fst r)) (snd r) /\ In (snd (fst r)) (snd r).
  Proof.
    unfold nb_demo. destruct (nb_init av p ideal nadir start x0) as [s0|] eqn:E; [|discriminate]. intros H. exists s0. split; auto.
    apply (play_reach s0 ds s0 (nb_start s0) [nb_start s0] r); [constructor|left; reflexivity|exact H].
  Qed.
End Inter.
