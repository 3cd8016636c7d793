(** * Reference Point Method with rearranged objectives: the simulation. *)
From Coq Require Import ZArith List Bool Reals Lra Lia Permutation.
From Verif Require Import Num NumXR Py Np Spec NpFacts PNavShift MAsf MRpm SRpm SRpmOrder POrder.
Import ListNotations.

Lemma nth_error_ext {A} : forall a b : list A, (forall i, nth_error a i = nth_error b i) -> a = b.
Proof.
  induction a as [|x a IH]; intros [|y b] H; auto; try (specialize (H 0%nat); discriminate).
  f_equal; [specialize (H 0%nat); cbn in H; congruence|]. apply IH. intros i. exact (H (S i)).
Qed.

Section RpmOrder.
  Context (p : list nat) (k : nat) (HP : Permutation p (seq 0 k)).
  Notation arr := (arranged p).
  Definition arrm (m : list (list XR)) : list (list XR) := arr (map arr m).
  Lemma arr_nil {A} : arr (@nil A) = [].
  Proof. unfold arranged. clear HP. induction p as [|i q IH]; [reflexivity|]. cbn [flat_map]. rewrite IH. destruct i; reflexivity. Qed.

  (** ** the achievement function *)
  Lemma asf_arr (rho : XR) (w n u f q : list XR) : length w = k -> length n = k -> length u = k -> length f = k -> length q = k ->
    rp_asf rho (arr w) (arr n) (arr u) (arr f) (arr q) = rp_asf rho w n u f q.
  Proof.
    intros Hw Hn Hu Hf Hq. assert (ZL : forall {A B C} (g : A -> B -> C) a b, length a = k -> length b = k -> length (zipw g a b) = k) by (intros A B C g a b Ha Hb; rewrite zipw_length; lia).
    unfold rp_asf. rewrite (arr_bcast p k HP nsub f q Hf Hq), (bcast2_eq nsub f q) by congruence. cbn [rbind].
    rewrite (arr_bcast p k HP nmul w _ Hw), (bcast2_eq nmul w) by (rewrite ?ZL; auto). cbn [rbind].
    rewrite (arr_npmax p k HP) by (repeat apply ZL; auto). destruct (npmax _) as [m|e]; [|reflexivity]. cbn [rbind].
    rewrite (arr_bcast p k HP nsub n u Hn Hu), (bcast2_eq nsub n u) by congruence. cbn [rbind].
    rewrite (arr_bcast p k HP ndiv), (bcast2_eq ndiv) by (rewrite ?ZL; auto). cbn [rbind].
    rewrite (arr_vsum p k HP) by (repeat apply ZL; auto). reflexivity.
  Qed.
  Lemma disc_arr (rho : XR) (w n u : list XR) objs q : length w = k -> length n = k -> length u = k -> is_matrix k objs -> length q = k ->
    rp_disc rho (arr w) (arr n) (arr u) (map arr objs) (arr q) = rp_disc rho w n u objs q.
  Proof.
    intros Hw Hn Hu Ho Hq. unfold rp_disc. rewrite map_map. unfold is_matrix in Ho. rewrite Forall_forall in Ho.
    rewrite (map_ext_in _ (fun f => rp_asf rho w n u f q)); [reflexivity|]. intros f Hf. apply asf_arr; auto.
  Qed.

  Context (p1 p2 : rp_problem XR) (HPB : rp_arranged_problem p k p1 p2) (rho eps : XR) (ideal nadir : list XR)
          (HI : length ideal = k) (HN : length nadir = k).
  Definition g2 (r : list XR * list XR) : list XR * list XR := (fst r, arr (snd r)).
  Lemma solve_arr (w n u q x0 : list XR) : length w = k -> length n = k -> length u = k -> length q = k ->
    rp_solve p2 rho (arr w) (arr n) (arr u) (arr q) x0 = rmap g2 (rp_solve p1 rho w n u q x0) /\
    forall r, rp_solve p1 rho w n u q x0 = Ok r -> length (snd r) = k.
  Proof.
    intros Hw Hn Hu Hq. unfold rp_arranged_problem in HPB. destruct p1 as [ev1 c1 x1 min1|o1 d1], p2 as [ev2 c2 x2 min2|o2 d2]; try contradiction.
    - destruct HPB as (_ & He & Hm). cbn [rp_solve]. rewrite Hm by assumption. destruct (min1 w n u q x0) as [x|e]; cbn [rbind rmap]; [|split; [reflexivity|discriminate]].
      unfold g2. cbn [fst snd]. destruct (He x) as [L ->]. split; [reflexivity|]. intros r [= <-]. exact L.
    - destruct HPB as (Ho & -> & ->). cbn [rp_solve]. rewrite disc_arr by assumption. destruct (rp_disc rho w n u o1 q) as [i|e]; cbn [rbind rmap]; [|split; [reflexivity|discriminate]].
      destruct (at_ d1 i) as [x|e]; cbn [rbind rmap]; [|split; [reflexivity|discriminate]]. rewrite at_map.
      destruct (at_ o1 i) as [f|e] eqn:E; cbn [rbind rmap]; [|split; [reflexivity|discriminate]]. split; [reflexivity|]. intros r [= <-]. cbn [snd].
      unfold at_ in E. destruct (nth_error o1 i) as [f'|] eqn:E'; [|discriminate]. injection E as <-. apply nth_error_In in E'. unfold is_matrix in Ho. rewrite Forall_forall in Ho. auto.
  Qed.
  Lemma x0_arr : rp_x0 p2 = rp_x0 p1.
  Proof. unfold rp_arranged_problem in HPB. destruct p1, p2; try contradiction; [destruct HPB as (-> & _)|destruct HPB as (_ & _ & ->)]; reflexivity. Qed.

  (** ** perturbed points *)
  Lemma unit_arr i j : nth_error p j = Some i -> unit_row k j = arr (unit_row (N := XR) k i).
  Proof.
    intros E. unfold unit_row. rewrite arr_map, (arr_order p k HP). apply nth_error_ext. intros m. rewrite !nth_error_map.
    destruct (Nat.lt_ge_cases m k) as [L|L].
    - rewrite (nth_error_nth' (seq 0 k) 0%nat) by (rewrite seq_length; exact L). rewrite seq_nth by exact L. cbn [option_map plus].
      destruct (nth_error p m) as [pm|] eqn:Em; [|apply nth_error_None in Em; rewrite (ord_len p k HP) in Em; lia]. cbn [option_map]. do 2 f_equal.
      destruct (Nat.eqb_spec m j) as [->|D], (Nat.eqb_spec pm i) as [->|D']; try reflexivity; [congruence|].
      exfalso. apply D. pose proof (ord_nodup p k HP) as ND. rewrite NoDup_nth_error in ND. apply ND; [|congruence]. rewrite (ord_len p k HP). exact L.
    - rewrite !(proj2 (nth_error_None _ _)); [reflexivity| |]; [rewrite (ord_len p k HP)|rewrite seq_length]; exact L.
  Qed.
  Lemma prp_eq (q f : list XR) : length q = k -> length f = k -> rp_prp q f = Ok (map (fun i => zipw nadd q (vscale (vnorm (zipw nsub q f)) (unit_row k i))) (seq 0 k)).
  Proof.
    intros Hq Hf. unfold rp_prp. rewrite bcast2_eq by congruence. cbn [rbind]. rewrite Hq. generalize (seq 0 k). induction l as [|i l IH]; [reflexivity|]. cbn [map rseq].
    rewrite bcast2_eq; [cbn [rbind]; rewrite IH; reflexivity|]. unfold vscale, unit_row. rewrite !map_length, seq_length. exact Hq.
  Qed.
  Lemma prp_arr (q f : list XR) : length q = k -> length f = k -> rp_prp (arr q) (arr f) = rmap arrm (rp_prp q f) /\
    forall pq, rp_prp q f = Ok pq -> length pq = k /\ is_matrix k pq.
  Proof.
    intros Hq Hf. split.
    - rewrite (prp_eq q f Hq Hf), prp_eq by (apply (arr_len p k HP); assumption). cbn [rmap]. f_equal. unfold arrm.
      rewrite (arr_zipw p nsub) by congruence. rewrite (arr_vnorm p k HP) by (rewrite zipw_length; lia). set (d := vnorm _).
      rewrite map_map, arr_map, (arr_order p k HP). apply nth_error_ext. intros j. rewrite !nth_error_map.
      destruct (Nat.lt_ge_cases j k) as [L|L].
      + rewrite (nth_error_nth' (seq 0 k) 0%nat) by (rewrite seq_length; exact L). rewrite seq_nth by exact L. cbn [option_map plus].
        destruct (nth_error p j) as [i|] eqn:E; [|apply nth_error_None in E; rewrite (ord_len p k HP) in E; lia]. cbn [option_map]. f_equal.
        rewrite (unit_arr i j E). unfold vscale. rewrite <- arr_map. rewrite arr_zipw; [reflexivity|]. unfold unit_row. rewrite !map_length, seq_length. exact Hq.
      + rewrite !(proj2 (nth_error_None _ _)); [reflexivity| |]; [rewrite (ord_len p k HP)|rewrite seq_length]; exact L.
    - rewrite (prp_eq q f Hq Hf). intros pq [= <-]. split; [rewrite map_length; apply seq_length|]. unfold is_matrix. rewrite Forall_map, Forall_forall. intros i _.
      rewrite zipw_length. unfold vscale, unit_row. rewrite !map_length, seq_length. etransitivity; [apply (f_equal (fun n => Nat.min n k) Hq)|apply Nat.min_id].
  Qed.

  (** ** lists of results *)
  Lemma rseq_all {A} (l : list (res A)) : (forall r, In r l -> exists a, r = Ok a) -> exists v, rseq l = Ok v.
  Proof.
    induction l as [|r l IH]; intros H; [exists []; reflexivity|]. destruct (H r (or_introl eq_refl)) as [a ->]. destruct IH as [v E]; [intros r Hr; apply H; right; exact Hr|].
    exists (a :: v). cbn [rseq]. rewrite E. reflexivity.
  Qed.
  Lemma rseq_maps {A} (v : list A) : rseq (map Ok v) = Ok v.
  Proof. induction v as [|a v IH]; [reflexivity|]. cbn [map rseq]. rewrite IH. reflexivity. Qed.
  Lemma rseq_arr {A} (l : list (res A)) : length l = k -> same_outcome (fun a b => b = arr a) (rseq l) (rseq (arr l)).
  Proof.
    intros Hl. destruct (rseq l) as [v|e] eqn:E.
    - apply rseq_ok in E. subst l. rewrite arr_map, rseq_maps. reflexivity.
    - destruct (rseq (arr l)) as [v|e'] eqn:E2; [|exact Logic.I]. apply rseq_ok in E2. destruct (rseq_all l) as [v' E']; [|congruence].
      intros r Hr. apply (Permutation_in _ (Permutation_sym (arr_perm p k HP l Hl))) in Hr. rewrite E2 in Hr. apply in_map_iff in Hr. destruct Hr as (a & <- & _). exists a. reflexivity.
  Qed.

  (** ** states *)
  Definition om {A B} (f : A -> B) (l : list (option A)) : list (option B) := map (option_map f) l.
  Definition ms (s : rp_state XR) : rp_state XR :=
    MkRS (rs_h s) (om arr (rs_qs s)) (rs_xs s) (om arr (rs_fs s)) (om arrm (rs_pqs s)) (om arr (rs_axs s)) (om arrm (rs_afs s)) (option_map arr (rs_q s)) (arr (rs_w s)).
  Definition lenk {A} (l : list (option (list A))) : Prop := Forall (fun o => forall v, o = Some v -> length v = k) l.
  Definition wf (s : rp_state XR) : Prop := lenk (rs_axs s) /\ lenk (rs_afs s).
  Definition sm {A B} (P : A -> B -> Prop) (m1 : SE (rp_state XR) A) (m2 : SE (rp_state XR) B) (s : rp_state XR) : Prop :=
    wf (fst (m1 s)) /\ fst (m2 (ms s)) = ms (fst (m1 s)) /\ same_outcome P (snd (m1 s)) (snd (m2 (ms s))).
  Lemma sm_bind {A B C D} (P : A -> B -> Prop) (Q : C -> D -> Prop) m1 m2 (f : A -> SE (rp_state XR) C) (g : B -> SE (rp_state XR) D) s :
    sm P m1 m2 s -> (forall a b s', wf s' -> P a b -> sm Q (f a) (g b) s') -> sm Q (sbind m1 f) (sbind m2 g) s.
  Proof.
    intros (W & E & R) H. unfold sm, sbind. destruct (m1 s) as [s1 r1], (m2 (ms s)) as [s2 r2]. cbn [fst snd] in *. subst s2.
    destruct r1 as [a|e1], r2 as [b|e2]; cbn [same_outcome] in R; try contradiction; cbn [fst snd]; [exact (H a b s1 W R)|]. repeat split; auto; apply W.
  Qed.
  Lemma sm_lift {A B} (P : A -> B -> Prop) r1 r2 s : wf s -> same_outcome P r1 r2 -> sm P (lift r1) (lift r2) s.
  Proof. intros W H. unfold sm, lift. cbn [fst snd]. auto. Qed.
  Lemma sm_get s : wf s -> sm (fun a b => b = ms a /\ wf a) sget sget s.
  Proof. intros W. unfold sm, sget. cbn [fst snd same_outcome]. auto. Qed.
  Lemma sm_mod f g s : wf (f s) -> g (ms s) = ms (f s) -> sm (fun _ _ => True) (smod f) (smod g) s.
  Proof. intros W E. unfold sm, smod. cbn [fst snd same_outcome]. auto. Qed.
  Lemma sm_ret {A B} (P : A -> B -> Prop) a b s : wf s -> P a b -> sm P (sret a) (sret b) s.
  Proof. intros W H. unfold sm, sret. cbn [fst snd same_outcome]. auto. Qed.
  Lemma so_refl {A} (r : res A) : same_outcome eq r r.
  Proof. destruct r; cbn; auto. Qed.
  Lemma so_map {A B} (f : A -> B) (P : A -> Prop) r : (forall a, r = Ok a -> P a) -> same_outcome (fun a b => b = f a /\ P a) r (rmap f r).
  Proof. destruct r; cbn; auto. Qed.

  Lemma set_nth_map {A B} (f : A -> B) : forall l i x, set_nth (map f l) i (f x) = option_map (map f) (set_nth l i x).
  Proof. induction l as [|a l IH]; intros [|i] x; cbn; try reflexivity. rewrite IH. destruct (set_nth l i x); reflexivity. Qed.
  Lemma set_map {A B} (f : A -> B) l i x : set_ (map f l) i (f x) = rmap (map f) (set_ l i x).
  Proof. unfold set_. rewrite set_nth_map. destruct (set_nth l i x); reflexivity. Qed.
  Lemma sput_arr {A} (f : A -> A) get put (v : A) s :
    wf s -> get (ms s) = om f (get s) -> (forall l, put (ms s) (om f l) = ms (put s l)) -> (forall l, set_ (get s) (rs_h s) (Some v) = Ok l -> wf (put s l)) ->
    sm (fun _ _ => True) (sput get put (Some v)) (sput get put (Some (f v))) s.
  Proof.
    intros W G P WP. unfold sm, sput, sbind, sget, lift, smod. cbn [fst snd]. rewrite G. change (rs_h (ms s)) with (rs_h s).
    change (Some (f v)) with (option_map f (Some v)). unfold om at 1 2. rewrite set_map. destruct (set_ (get s) (rs_h s) (Some v)) as [l|e] eqn:E; cbn [rmap fst snd same_outcome].
    - split; [apply WP; reflexivity|]. split; [apply P|exact Logic.I].
    - repeat split; try apply W.
  Qed.
  Lemma lenk_set {A} (l l' : list (option (list A))) i v : lenk l -> length v = k -> set_ l i (Some v) = Ok l' -> lenk l'.
  Proof.
    unfold set_, lenk. destruct (set_nth l i (Some v)) as [l2|] eqn:E; [|discriminate]. intros H Hv [= <-]. revert l2 i E. induction H as [|o l Ho H IH]; intros l2 i E; [discriminate|].
    destruct i as [|i]; cbn in E; [injection E as <-; constructor; [intros w [= <-]; exact Hv|exact H]|]. destruct (set_nth l i (Some v)) as [l3|] eqn:E3; [|discriminate]. injection E as <-.
    constructor; [exact Ho|eapply IH; exact E3].
  Qed.

  (** ** one round *)
  Notation qrel := (fun r1 r2 : rp_request XR => r2 = arranged_req p r1 /\ (match r1 with RReq f fs => length f = k /\ length fs = k | _ => True end)).
  Lemma utopian_arr : rp_utopian (arr ideal) eps = arr (rp_utopian ideal eps).
  Proof. unfold rp_utopian. symmetry. apply arr_map. Qed.
  Lemma round_arr a1 a2 s : wf s -> arranged_ref p k a1 a2 -> sm qrel (rp_round p1 rho eps ideal nadir a1) (rp_round p2 rho eps (arr ideal) (arr nadir) a2) s.
  Proof.
    intros W HA. unfold rp_round. eapply (sm_bind (fun a b => b = arr a /\ length a = k)).
    { apply sm_lift; [exact W|]. destruct HA; cbn; auto. }
    intros q q' s1 W1 [-> Hq]. eapply sm_bind.
    { apply (sput_arr arr); [exact W1|reflexivity|intros l; reflexivity|intros l _; exact W1]. }
    intros _ _ s2 W2 _. eapply sm_bind; [apply sm_mod; [exact W2|reflexivity]|]. intros _ _ s3 W3 _.
    assert (HU : length (rp_utopian ideal eps) = k) by (unfold rp_utopian; rewrite map_length; exact HI). rewrite utopian_arr.
    rewrite (arr_bcast p k HP nsub _ _ HU HN), (bcast2_eq nsub (rp_utopian ideal eps) nadir) by congruence.
    eapply (sm_bind (fun a b => b = arr a /\ length a = k)); [apply sm_lift; [exact W3|]; split; [reflexivity|rewrite zipw_length; lia]|].
    intros den den' s4 W4 [-> Hd]. rewrite (arr_bcast p k HP ndiv _ _ Hq Hd), (bcast2_eq ndiv q den) by congruence.
    eapply (sm_bind (fun a b => b = arr a /\ length a = k)); [apply sm_lift; [exact W4|]; split; [reflexivity|rewrite zipw_length; lia]|].
    intros w w' s5 W5 [-> Hw]. eapply sm_bind; [apply sm_mod; [exact W5|reflexivity]|]. intros _ _ s6 W6 _. rewrite x0_arr.
    eapply (sm_bind eq); [apply sm_lift; [exact W6|apply so_refl]|]. intros x0 x0' s7 W7 <-.
    eapply (sm_bind (fun a b => b = g2 a /\ length (snd a) = k)).
    { apply sm_lift; [exact W7|]. destruct (solve_arr w nadir (rp_utopian ideal eps) q x0 Hw HN HU Hq) as [-> HL]. apply so_map. exact HL. }
    intros r r' s8 W8 [-> Hr]. unfold g2. cbn [fst snd]. eapply sm_bind.
    { pose proof (sput_arr (fun x : list XR => x) rs_xs w_xs (fst r) s8 W8) as H. apply H.
      - change (rs_xs (ms s8)) with (rs_xs s8). unfold om. etransitivity; [symmetry; apply map_id|]. apply map_ext. intros [x|]; reflexivity.
      - intros l. assert (E : om (fun x : list XR => x) l = l) by (unfold om; rewrite <- (map_id l) at 2; apply map_ext; intros [x|]; reflexivity). rewrite E. reflexivity.
      - intros l _. exact W8. }
    intros _ _ s9 W9 _. eapply sm_bind.
    { apply (sput_arr arr); [exact W9|reflexivity|intros l; reflexivity|intros l _; exact W9]. }
    intros _ _ s10 W10 _. eapply (sm_bind (fun a b => b = arrm a /\ length a = k /\ is_matrix k a)).
    { apply sm_lift; [exact W10|]. destruct (prp_arr q (snd r) Hq Hr) as [-> HL]. apply so_map. exact HL. }
    intros pq pq' s11 W11 (-> & Lpq & Mpq). eapply sm_bind.
    { apply (sput_arr arrm); [exact W11|reflexivity|intros l; reflexivity|intros l _; exact W11]. }
    intros _ _ s12 W12 _. eapply (sm_bind (fun a b => b = arr (map g2 a) /\ length a = k)).
    { apply sm_lift; [exact W12|].
      assert (EQ : map (fun pqi => rp_solve p2 rho (arr w) (arr nadir) (arr (rp_utopian ideal eps)) pqi x0) (arrm pq) = arr (map (fun pqi => rmap g2 (rp_solve p1 rho w nadir (rp_utopian ideal eps) pqi x0)) pq)).
      { unfold arrm. rewrite <- arr_map, map_map. f_equal. apply map_ext_in. intros pqi Hin. unfold is_matrix in Mpq. rewrite Forall_forall in Mpq.
        exact (proj1 (solve_arr w nadir (rp_utopian ideal eps) pqi x0 Hw HN HU (Mpq _ Hin))). }
      rewrite EQ.
      pose proof (rseq_arr (map (fun pqi => rmap g2 (rp_solve p1 rho w nadir (rp_utopian ideal eps) pqi x0)) pq)) as RA. rewrite map_length in RA. specialize (RA Lpq).
      assert (RM : rseq (map (fun pqi => rmap g2 (rp_solve p1 rho w nadir (rp_utopian ideal eps) pqi x0)) pq) = rmap (map g2) (rseq (map (fun pqi => rp_solve p1 rho w nadir (rp_utopian ideal eps) pqi x0) pq))).
      { clear. induction pq as [|a pq IH]; [reflexivity|]. cbn [map rseq]. destruct (rp_solve p1 rho w nadir (rp_utopian ideal eps) a x0); [|reflexivity]. cbn [rmap rbind]. rewrite IH. match goal with |- context [rmap (map g2) ?r] => destruct r; reflexivity end. }
      rewrite RM in RA. destruct (rseq (map (fun pqi => rp_solve p1 rho w nadir (rp_utopian ideal eps) pqi x0) pq)) as [v|e] eqn:E; cbn [rmap] in RA;
        destruct (rseq (arr _)) as [v'|e']; cbn [same_outcome] in *; try contradiction; auto. subst v'. split; [reflexivity|].
      apply rseq_ok in E. apply (f_equal (@length _)) in E. rewrite !map_length in E. congruence. }
    intros rs rs' s13 W13 [-> Lrs].
    assert (EF : map fst (arr (map g2 rs)) = arr (map fst rs)) by (rewrite <- arr_map, map_map; reflexivity).
    assert (ES : map snd (arr (map g2 rs)) = arrm (map snd rs)) by (unfold arrm; rewrite <- arr_map, !map_map; reflexivity).
    rewrite EF, ES. eapply sm_bind.
    { apply (sput_arr arr); [exact W13|reflexivity|intros l; reflexivity|]. intros l E. split; [|exact (proj2 W13)]. eapply lenk_set; [exact (proj1 W13)| |exact E]. rewrite map_length. exact Lrs. }
    intros _ _ s14 W14 _. eapply sm_bind.
    { apply (sput_arr arrm); [exact W14|reflexivity|intros l; reflexivity|]. intros l E. split; [exact (proj1 W14)|]. eapply lenk_set; [exact (proj2 W14)| |exact E]. rewrite map_length. exact Lrs. }
    intros _ _ s15 W15 _. apply sm_ret; [exact W15|]. split; [reflexivity|]. rewrite map_length. auto.
  Qed.

  (** ** answers *)
  Lemma sat_same d1 d2 : arranged_answer p k d1 d2 -> rp_satisfied d2 = rp_satisfied d1.
  Proof. intros (E & _). unfold rp_satisfied. rewrite E. reflexivity. Qed.
  Lemma moved_lt b a : nth_error p b = Some a -> (a < k)%nat /\ (b < k)%nat.
  Proof.
    intros E. split; [apply (ord_lt p k HP); eapply nth_error_In; exact E|]. rewrite <- (ord_len p k HP). apply nth_error_Some. congruence.
  Qed.
  Lemma validate_ref_arr a1 a2 : arranged_ref p k a1 a2 -> rp_validate_ref a2 (arr ideal) (arr nadir) = rp_validate_ref a1 ideal nadir.
  Proof.
    intros [q Hq| |]; cbn [rp_validate_ref]; try reflexivity. rewrite (arr_len p k HP ideal HI), (arr_len p k HP q Hq), HI, Hq.
    rewrite (arr_zipw p nltb nadir q) by congruence. rewrite (arr_forallb p k HP) by (rewrite zipw_length; lia). reflexivity.
  Qed.
  Definition reqok (r : rp_request XR) : Prop := match r with RReq f fs => length f = k /\ length fs = k | _ => True end.
  (** an index of an accepted answer *)
  Lemma index_ok (i : pyval XR) : (do lo <- py_ge i 0; do hi <- (if lo : bool then py_le i (Z.of_nat k) else Ok false); if hi : bool then Ok tt else Raise MethodExn) = Ok tt ->
    forall z, as_int i = Some z -> (0 <= z <= Z.of_nat k)%Z.
  Proof.
    intros H z E. destruct i as [|b|n| | |]; try discriminate; cbn in E, H; injection E as <-.
    - destruct (Z.leb_spec 0 (bool2Z b)); [|discriminate]. cbn in H. destruct (Z.leb_spec (bool2Z b) (Z.of_nat k)); [lia|discriminate].
    - destruct (Z.leb_spec 0 n); [|discriminate]. cbn in H. destruct (Z.leb_spec n (Z.of_nat k)); [lia|discriminate].
  Qed.
  Lemma index_valid (i : pyval XR) a : as_int i = Some (Z.of_nat (S a)) -> (a < k)%nat ->
    truthy i = true /\ py_eq i 0 = false /\ (do lo <- py_ge i 0; do hi <- (if lo : bool then py_le i (Z.of_nat k) else Ok false); if hi : bool then Ok tt else Raise MethodExn) = Ok tt.
  Proof.
    intros E L. destruct i as [|b|n| | |]; try discriminate.
    - destruct b; [|unfold as_int, bool2Z in E; injection E; lia]. cbn -[Z.of_nat Z.leb]. destruct (Z.leb_spec 0 1); [|lia]. cbn -[Z.of_nat Z.leb]. destruct (Z.leb_spec 1 (Z.of_nat k)); [repeat split|lia].
    - assert (En : n = Z.of_nat (S a)) by (unfold as_int in E; congruence). subst n. assert (B : (1 <= Z.of_nat (S a) <= Z.of_nat k)%Z) by lia. revert B. generalize (Z.of_nat (S a)). intros z B.
      unfold py_ge, py_le, truthy, py_eq. cbn [rbind]. destruct (Z.eqb_spec z 0); [lia|]. destruct (Z.leb_spec 0 z); [|lia]. cbn -[Z.of_nat Z.leb].
      destruct (Z.leb_spec z (Z.of_nat k)); [|lia]. repeat split.
  Qed.
  Lemma validate_arr r d1 d2 : reqok r -> arranged_answer p k d1 d2 -> rp_validate (arr ideal) (arr nadir) (arranged_req p r) d2 = rp_validate ideal nadir r d1.
  Proof.
    intros HR HA. pose proof (sat_same d1 d2 HA) as ES. destruct HA as (_ & HF & HX).
    assert (V : match rd_ref d2 with None => Raise MethodExn | Some a => rp_validate_ref a (arr ideal) (arr nadir) end = match rd_ref d1 with None => Raise MethodExn | Some a => rp_validate_ref a ideal nadir end).
    { unfold both in HF. destruct (rd_ref d1) as [a1|], (rd_ref d2) as [a2|]; try contradiction; [|reflexivity]. apply validate_ref_arr. exact HF. }
    destruct r as [|f fs|x f]; cbn [arranged_req rp_validate]; [exact V| |reflexivity]. rewrite ES. destruct (rp_satisfied d1); [|exact V].
    destruct HR as [Lf _]. rewrite (arr_len p k HP f Lf), Lf. unfold both in HX. destruct (rd_idx d1) as [i|], (rd_idx d2) as [i'|]; try contradiction; [|reflexivity]. cbn [key rbind].
    destruct HX as [i _|i a b Ea Eb]; [reflexivity|]. destruct (moved_lt b a Eb) as [La Lb].
    destruct (index_valid i a Ea La) as (T1 & T2 & T3). destruct (index_valid (VInt (Z.of_nat (S b))) b eq_refl Lb) as (U1 & U2 & U3).
    rewrite T1, T2, U1, U2. cbn [negb andb]. exact (eq_trans U3 (eq_sym T3)).
  Qed.

  (** ** the handlers *)
  Lemma at_om {A B} (f : A -> B) (l : list (option A)) i : at_ (om f l) i = rmap (option_map f) (at_ l i).
  Proof. apply at_map. Qed.
  Lemma at_lenk {A} (l : list (option (list A))) i o : lenk l -> at_ l i = Ok o -> forall v, o = Some v -> length v = k.
  Proof.
    unfold at_, lenk. intros H E. destruct (nth_error l i) as [o'|] eqn:E'; [|discriminate]. injection E as <-. apply nth_error_In in E'. rewrite Forall_forall in H. exact (H _ E').
  Qed.
  Lemma py_nth_in {A} (l : list A) a : (a < length l)%nat -> py_nth l (Z.of_nat a) = at_ l a.
  Proof.
    intros L. unfold py_nth, py_pos, at_. destruct (Z.leb_spec 0 (Z.of_nat a)); [|lia]. destruct (Z.ltb_spec (Z.of_nat a) (Z.of_nat (length l))); [|lia]. cbn [andb]. rewrite Nat2Z.id. reflexivity.
  Qed.
  Lemma sub_arr {A B} (f : A -> B) (o : option (list A)) (i i' : pyval XR) a b : (forall v, o = Some v -> length v = k) -> as_int i = Some (Z.of_nat (S a)) -> nth_error p b = Some a ->
    i' = VInt (Z.of_nat (S b)) -> sub_ (option_map (fun l => arr (map f l)) o) (pred_val i') = rmap f (sub_ o (pred_val i)).
  Proof.
    intros HO Ea Eb ->. destruct (moved_lt b a Eb) as [La Lb]. assert (P1 : as_int (pred_val i) = Some (Z.of_nat a)).
    { destruct i as [|c|n| | |]; try discriminate; unfold pred_val, as_int in *; f_equal; assert (EE : forall x y : Z, Some x = Some y -> x = y) by congruence; apply EE in Ea; lia. }
    assert (P2 : as_int (pred_val (VInt (Z.of_nat (S b)) : pyval XR)) = Some (Z.of_nat b)) by (unfold pred_val, as_int; f_equal; lia).
    unfold sub_. rewrite P1, P2. destruct o as [v|]; cbn [option_map]; [|reflexivity]. specialize (HO v eq_refl).
    assert (LM : length (map f v) = k) by (rewrite map_length; exact HO).
    rewrite (py_nth_in v a) by lia. rewrite py_nth_in by (rewrite (arr_len p k HP _ LM); exact Lb).
    unfold at_. rewrite (arr_nth p k HP _ LM), Eb, nth_error_map. destruct (nth_error v a); reflexivity.
  Qed.
  Lemma ms_grow s : wf s -> ms (rp_grow s) = rp_grow (ms s) /\ wf (rp_grow s).
  Proof.
    intros W. unfold rp_grow. assert (LO : length (rs_qs (ms s)) = length (rs_qs s)) by (cbn [ms rs_qs]; unfold om; apply map_length). rewrite LO. change (rs_h (ms s)) with (rs_h s). destruct (Nat.leb (length (rs_qs s)) (rs_h s + 2)); [|split; [reflexivity|exact W]]. split.
    - unfold ms, grow, om. cbn [rs_h rs_qs rs_xs rs_fs rs_pqs rs_axs rs_afs rs_q rs_w]. rewrite !map_app. reflexivity.
    - unfold wf, lenk, grow in *. cbn [rs_axs rs_afs]. rewrite !Forall_app. repeat split; try apply W; apply Forall_forall; intros o Ho v ->; apply repeat_spec in Ho; discriminate.
  Qed.
  Lemma handle_arr d1 d2 r s : wf s -> (exists f fs, r = RReq f fs) -> reqok r -> arranged_answer p k d1 d2 -> rp_validate ideal nadir r d1 = Ok tt ->
    sm qrel (rp_handle p1 rho eps ideal nadir d1) (rp_handle p2 rho eps (arr ideal) (arr nadir) d2) s.
  Proof.
    intros W (f0 & fs0 & ->) HR HA HV. pose proof (sat_same d1 d2 HA) as ES. unfold rp_handle. rewrite ES. destruct (rp_satisfied d1) eqn:ESat.
    - destruct HA as (_ & _ & HX). cbn [rp_validate] in HV. rewrite ESat in HV. unfold both in HX. destruct (rd_idx d1) as [i|], (rd_idx d2) as [i'|]; try contradiction; [|discriminate HV].
      cbn [key rbind] in HV. destruct HR as [Lf _]. rewrite Lf in HV.
      eapply (sm_bind (fun a b => a = i /\ b = i')); [apply sm_lift; [exact W|]; cbn; auto|]. intros a b s1 W1 [-> ->].
      eapply sm_bind; [apply sm_get; exact W1|]. intros t t' s2 W2 [-> WT].
      assert (ZERO : sm qrel (x <-- lift (at_ (rs_xs t) (rs_h t)) ;; f <-- lift (at_ (rs_fs t) (rs_h t)) ;; sret (RStop x f))
                             (x <-- lift (at_ (rs_xs (ms t)) (rs_h (ms t))) ;; f <-- lift (at_ (rs_fs (ms t)) (rs_h (ms t))) ;; sret (RStop x f)) s2).
      { eapply (sm_bind eq); [apply sm_lift; [exact W2|apply so_refl]|]. intros x x' s3 W3 <-.
        eapply (sm_bind (fun a b => b = option_map arr a /\ True)); [apply sm_lift; [exact W3|]; cbn [ms rs_fs rs_h]; rewrite at_om; apply so_map; auto|].
        intros f f' s4 W4 [-> _]. apply sm_ret; [exact W4|]. split; [reflexivity|exact Logic.I]. }
      assert (OTHER : forall j j' : pyval XR, (as_int j = None /\ j' = j) \/ (exists a b, as_int j = Some (Z.of_nat (S a)) /\ nth_error p b = Some a /\ j' = VInt (Z.of_nat (S b))) ->
        sm qrel (ax <-- lift (at_ (rs_axs t) (rs_h t)) ;; x <-- lift (sub_ ax (pred_val j)) ;; af <-- lift (at_ (rs_afs t) (rs_h t)) ;; f <-- lift (sub_ af (pred_val j)) ;; sret (RStop (Some x) (Some f)))
                (ax <-- lift (at_ (rs_axs (ms t)) (rs_h (ms t))) ;; x <-- lift (sub_ ax (pred_val j')) ;; af <-- lift (at_ (rs_afs (ms t)) (rs_h (ms t))) ;; f <-- lift (sub_ af (pred_val j')) ;; sret (RStop (Some x) (Some f))) s2).
      { intros j j' HJ.
        eapply (sm_bind (fun a b => b = option_map arr a /\ forall v, a = Some v -> length v = k)).
        { apply sm_lift; [exact W2|]. cbn [ms rs_axs rs_h]. rewrite at_om. apply so_map. intros o Eo. eapply at_lenk; [exact (proj1 WT)|exact Eo]. }
        intros ax ax' s3 W3 [-> Lax]. destruct HJ as [[EN ->]|(a & b & Ea & Eb & EJ)].
        { assert (EP : as_int (pred_val j) = None) by (destruct j; try discriminate EN; reflexivity).
          assert (SN : forall {A} (o : option (list A)), sub_ o (pred_val j) = Raise TypeErr) by (intros A [o|]; unfold sub_; [rewrite EP|]; reflexivity).
          rewrite !SN. unfold sm, sbind, lift. cbn [fst snd same_outcome]. repeat split; try apply W3. }
        eapply (sm_bind (fun a b => b = a)).
        { apply sm_lift; [exact W3|]. pose proof (sub_arr (fun x : list XR => x) ax j j' a b Lax Ea Eb EJ) as SA.
          assert (EI : option_map arr ax = option_map (fun l => arr (map (fun x => x) l)) ax) by (destruct ax as [v|]; [cbn; rewrite map_id; reflexivity|reflexivity]).
          rewrite EI, SA. destruct (sub_ ax (pred_val j)); cbn; auto. }
        intros x x' s4 W4 ->.
        eapply (sm_bind (fun a b => b = option_map arrm a /\ forall v, a = Some v -> length v = k)).
        { apply sm_lift; [exact W4|]. cbn [ms rs_afs rs_h]. rewrite at_om. apply so_map. intros o Eo. eapply at_lenk; [exact (proj2 WT)|exact Eo]. }
        intros af af' s5 W5 [-> Laf]. eapply (sm_bind (fun a b => b = arr a /\ True)).
        { apply sm_lift; [exact W5|]. pose proof (sub_arr arr af j j' a b Laf Ea Eb EJ) as SA. unfold arrm. rewrite SA. apply so_map. auto. }
        intros f f' s6 W6 [-> _]. apply sm_ret; [exact W6|]. split; [reflexivity|exact Logic.I]. }
      assert (HV' : (do lo <- py_ge i 0; do hi <- (if lo : bool then py_le i (Z.of_nat k) else Ok false); if hi : bool then Ok tt else Raise MethodExn) = Ok tt).
      { destruct (negb (truthy i) && negb (py_eq i 0)); [discriminate HV|exact HV]. }
      destruct HX as [i HZ|i a b Ea Eb].
      + destruct (py_eq i 0) eqn:E0; [exact ZERO|]. apply OTHER. left. split; [|reflexivity]. destruct (as_int i) as [z|] eqn:EZ; [|reflexivity]. exfalso.
        pose proof (index_ok i HV' z EZ) as HB. specialize (HZ z eq_refl). assert (z = 0%Z) by lia. subst z. destruct i; try discriminate; cbn in EZ, E0; injection EZ as EZ; rewrite EZ in E0; discriminate.
      + destruct (moved_lt b a Eb) as [La Lb]. destruct (index_valid i a Ea La) as (_ & T2 & _). destruct (index_valid (VInt (Z.of_nat (S b))) b eq_refl Lb) as (_ & U2 & _).
        rewrite T2, U2. apply OTHER. right. exists a, b. auto.
    - eapply sm_bind; [apply sm_mod; [exact W|reflexivity]|]. intros _ _ s1 W1 _. eapply sm_bind; [apply sm_mod; [apply (ms_grow s1 W1)|symmetry; apply (ms_grow s1 W1)]|].
      intros _ _ s2 W2 _. destruct HA as (_ & HF & _). eapply (sm_bind (arranged_ref p k)).
      { apply sm_lift; [exact W2|]. unfold both in HF. destruct (rd_ref d1), (rd_ref d2); try contradiction; cbn; auto. }
      intros a1 a2 s3 W3 Ha. apply round_arr; assumption.
  Qed.
  Lemma iterate_arr r resp1 resp2 s : wf s -> reqok r -> both (fun d1 d2 => arranged_answer p k d1 d2 /\ rp_validate ideal nadir r d1 = Ok tt) resp1 resp2 ->
    sm qrel (rp_iterate p1 rho eps ideal nadir r resp1) (rp_iterate p2 rho eps (arr ideal) (arr nadir) (arranged_req p r) resp2) s.
  Proof.
    intros W HR HB. destruct r as [|f fs|x f]; cbn [arranged_req rp_iterate].
    - unfold both in HB. destruct resp1 as [d1|], resp2 as [d2|]; try contradiction; cbn [rp_resp].
      2:{ unfold sm, sbind, lift. cbn [fst snd same_outcome]. repeat split; try apply W. }
      eapply (sm_bind (fun a b => a = d1 /\ b = d2)); [apply sm_lift; [exact W|]; cbn; auto|]. intros a b s1 W1 [-> ->]. destruct HB as ((_ & HF & _) & _).
      eapply (sm_bind (arranged_ref p k)).
      { apply sm_lift; [exact W1|]. unfold both in HF. destruct (rd_ref d1), (rd_ref d2); try contradiction; cbn; auto. }
      intros a1 a2 s3 W3 Ha. apply round_arr; assumption.
    - unfold both in HB. destruct resp1 as [d1|], resp2 as [d2|]; try contradiction; cbn [rp_resp].
      2:{ unfold sm, sbind, lift. cbn [fst snd same_outcome]. repeat split; try apply W. }
      eapply (sm_bind (fun a b => a = d1 /\ b = d2)); [apply sm_lift; [exact W|]; cbn; auto|]. intros a b s1 W1 [-> ->]. destruct HB as (HA & HV).
      eapply handle_arr; eauto.
    - apply sm_ret; [exact W|]. split; [reflexivity|exact Logic.I].
  Qed.

  Lemma ms_init : ms rp_init = rp_init.
  Proof. unfold ms, rp_init. cbn [rs_h rs_qs rs_xs rs_fs rs_pqs rs_axs rs_afs rs_q rs_w option_map]. rewrite arr_nil. reflexivity. Qed.
  Lemma wf_init : wf rp_init.
  Proof. split; unfold lenk; apply Forall_forall; intros o Ho v ->; cbn in Ho; repeat (destruct Ho as [Ho|Ho]; [discriminate|]); destruct Ho. Qed.
  Lemma parallel_inv s1 s2 qs : rp_parallel p k p1 p2 rho eps ideal nadir s1 s2 qs ->
    wf s1 /\ s2 = ms s1 /\ Forall (fun q => snd q = arranged_req p (fst q) /\ reqok (fst q)) qs.
  Proof.
    induction 1 as [|s1 s2 qs q1 q2 resp1 resp2 s1' s2' out1 out2 _ (W & -> & HQ) Hin HB E1 E2].
    - split; [exact wf_init|]. split; [symmetry; exact ms_init|]. constructor; [|constructor]. split; [reflexivity|exact Logic.I].
    - pose proof HQ as HQ'. rewrite Forall_forall in HQ. destruct (HQ _ Hin) as [EQ RO]. cbn [fst snd] in EQ, RO. subst q2.
      destruct (iterate_arr q1 resp1 resp2 s1 W RO HB) as (W' & ES & R). rewrite E1, E2 in *. cbn [fst snd] in *. split; [exact W'|]. split; [exact ES|].
      destruct out1 as [r1|e1], out2 as [r2|e2]; cbn [same_outcome] in R; try contradiction; [|exact HQ']. constructor; [|exact HQ']. exact R.
  Qed.
End RpmOrder.
