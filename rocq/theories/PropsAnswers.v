(** * Which answers NAUTILUS and NAUTILUS 2 accept (C102), and what iterating an
    unanswered request does (C103).  Vocabulary in SNautilus.v. *)
From Coq Require Import ZArith List Bool Lia Floats.
From Verif Require Import Num NumF64 Py Np NpFacts Spec SNautilus MENautilus MNavigator MNimbus MRpm MParetoNav.
From Verif Require MNautilus.
Import ListNotations.

(** ** C102 *)
Lemma ratio_value {N : NumOps} (v : pyval N) r : MNautilus.ratio_val v = Some r <-> is_value v r.
Proof.
  split.
  - destruct v; cbn; try discriminate; intros H; injection H as <-; constructor.
  - intros H. destruct H; try reflexivity; destruct b; reflexivity.
Qed.
Lemma objs_ok {N : NumOps} k (l : list (pyval N)) os : MNautilus.nt2_objs k l = Ok os <->
  Forall2 (fun o n => as_int o = Some (Z.of_nat n) /\ 1 <= n <= k) l os.
Proof.
  revert os. induction l as [|o l IH]; intros os; cbn.
  - split; [intros H; injection H as <-; constructor|intros H; inversion H; reflexivity].
  - destruct (as_int o) as [z|] eqn:E.
    2:{ split; [discriminate|]. intros H; inversion H; subst. intuition congruence. }
    destruct (Z.leb_spec z 0). { split; [discriminate|]. intros H'; inversion H'; subst. destruct H2 as [H2 ?]. rewrite E in H2. injection H2 as ->. lia. }
    destruct (Z.leb_spec z (Z.of_nat k)).
    2:{ split; [discriminate|]. intros H'; inversion H'; subst. destruct H3 as [H3 ?]. rewrite E in H3. injection H3 as ->. lia. }
    split.
    + intros H'. apply rmap_ok in H'. destruct H' as (os' & H' & ->). constructor; [|apply IH; auto]. split; [rewrite Z2Nat.id by lia; auto|lia].
    + intros H'. inversion H' as [|? n ? os' [A B] C]; subst. rewrite E in A. injection A as ->. apply IH in C. rewrite C. cbn. rewrite Nat2Z.id. reflexivity.
Qed.
Lemma pair_ok {N : NumOps} k (e : list (pyval N) * pyval N) os : MNautilus.nt2_pair k e = Ok os <->
  Forall2 (fun o n => as_int o = Some (Z.of_nat n) /\ 1 <= n <= k) (fst e) os /\ exists r, is_value (snd e) r /\ nleb r (nofZ 0) = false.
Proof.
  unfold MNautilus.nt2_pair. rewrite <- objs_ok. destruct (MNautilus.nt2_objs k (fst e)) as [os'|x]; cbn [rbind].
  - destruct (MNautilus.ratio_val (snd e)) as [r|] eqn:E.
    + apply ratio_value in E. destruct (nleb r (nofZ 0)) eqn:L.
      * split; [discriminate|]. intros (_ & r' & V & L'). assert (r' = r) by (apply ratio_value in V; apply ratio_value in E; congruence). congruence.
      * split; [intros H; injection H as <-; eauto|]. intros [H _]. exact H.
    + split; [discriminate|]. intros (_ & r' & V & _). apply ratio_value in V. congruence.
  - split; [discriminate|]. intros [H _]. discriminate.
Qed.
Lemma pairs_run {N : NumOps} k (l : list (list (pyval N) * pyval N)) ms :
  rseq (map (MNautilus.nt2_pair k) l) = Ok ms <-> Forall2 (fun e os => MNautilus.nt2_pair k e = Ok os) l ms.
Proof. apply rseq_map_ok. Qed.
Lemma pairs_mentioned {N : NumOps} k (l : list (list (pyval N) * pyval N)) ms :
  Forall2 (fun e os => MNautilus.nt2_pair k e = Ok os) l ms -> forall o, In o (concat ms) <-> mentioned l o.
Proof.
  intros H o. induction H as [|e os l' ms' He Hl IH]; cbn [concat].
  - split; [contradiction|]. intros (e & x & [] & _).
  - apply pair_ok in He. destruct He as [He _]. rewrite in_app_iff, IH. split.
    + intros [Ho|(e' & x & He' & Hx)].
      * destruct (Forall2_In_r _ _ _ _ He Ho) as (x & Hx & Hi & _). exists e, x. split; [left; auto|]. auto.
      * exists e', x. split; [right; auto|auto].
    + intros (e' & x & [<-|He'] & Hx & Hi).
      * left. destruct (Forall2_In_l _ _ _ _ He Hx) as (n & Hn & Hi' & _). unfold int_is in Hi. rewrite Hi in Hi'. injection Hi' as Hi'.
        apply Nat2Z.inj in Hi'. congruence.
      * right. exists e', x. auto.
Qed.
Lemma entries_ok {N : NumOps} k (l : list (list (pyval N) * pyval N)) :
  Forall (good_entry k) l <-> exists ms, Forall2 (fun e os => MNautilus.nt2_pair k e = Ok os) l ms.
Proof.
  split.
  - induction 1 as [|e l (He & Hr) H [ms IH]]; [exists []; constructor|].
    assert (X : exists os, Forall2 (fun o n => as_int o = Some (Z.of_nat n) /\ 1 <= n <= k) (fst e) os).
    { clear - He. induction He as [|o l (z & Hz & Hb) H [os IH]]; [exists []; constructor|]. exists (Z.to_nat z :: os).
      constructor; [|auto]. rewrite Z2Nat.id by lia. split; [auto|lia]. }
    destruct X as [os X]. exists (os :: ms). constructor; [apply pair_ok; auto|auto].
  - intros [ms H]. induction H as [|e os l ms He H IH]; constructor; auto. apply pair_ok in He. destruct He as [He Hr].
    split; [|exact Hr]. clear - He. induction He as [|o n l os [Ho Hb] H IH]; constructor; auto. exists (Z.of_nat n). split; [auto|lia].
Qed.

(** The preference information NAUTILUS 2 accepts, in every arithmetic, whatever the
    types of the two values: exactly [v2_accepts]. *)
Lemma check2_iff {N : NumOps} k m (i : MNautilus.nt_info N) : 1 <= k ->
  (MNautilus.nt2_check k m i = Ok tt <-> v2_accepts k m i).
Proof.
  intros Hk. unfold MNautilus.nt2_check, v2_accepts.
  destruct (py_eq m 1 || py_eq m 2) eqn:E12; cbn [orb negb].
  - assert (H12 : py_eq m 1 = true \/ py_eq m 2 = true) by (apply orb_prop; auto). split.
    + intros H. left. split; [auto|]. destruct i as [v|v|l|]; try discriminate. cbn [rbind] in H. exists v. split; [auto|].
      destruct (existsb (fun x => nleb x (nofZ 0)) v) eqn:E; [discriminate|].
      destruct (Nat.ltb_spec (length v) k); [discriminate|]. split.
      { apply Forall_forall. intros x Hx. destruct (nleb x (nofZ 0)) eqn:Ex; [|auto]. rewrite <- E. symmetry. apply existsb_exists. eauto. }
      split; [auto|]. intros E2. rewrite E2 in H. cbn [andb] in H. destruct (existsb (fun x => neqb x (nofZ 1)) v) eqn:E1; [|discriminate].
      apply existsb_exists in E1. destruct E1 as (x & Hx & Ex). apply Exists_exists. eauto.
    + intros [[_ (v & -> & Hp & Hl & H1)]|(E1 & E2 & _)]; [|rewrite E1, E2 in E12; discriminate]. cbn [rbind].
      assert (E : existsb (fun x => nleb x (nofZ 0)) v = false).
      { destruct (existsb _ v) eqn:E; [|auto]. apply existsb_exists in E. destruct E as (x & Hx & Ex). rewrite Forall_forall in Hp. rewrite Hp in Ex; [discriminate|auto]. }
      rewrite E. destruct (Nat.ltb_spec (length v) k); [lia|].
      destruct (py_eq m 2) eqn:E2; cbn [andb]; [|reflexivity].
      assert (X : existsb (fun x => neqb x (nofZ 1)) v = true).
      { specialize (H1 eq_refl). apply Exists_exists in H1. apply existsb_exists. destruct H1 as (x & Hx & Ex). eauto. }
      rewrite X. reflexivity.
  - apply orb_false_iff in E12. destruct E12 as [E1 E2]. rewrite E1, E2. cbn [orb].
    destruct (py_eq m 3) eqn:E3; cbn [negb].
    2:{ split; [discriminate|]. intros [[[|] _]|(_ & _ & ? & _)]; discriminate. }
    assert (P : forall l : list (list (pyval N) * pyval N), (do ms <- rseq (map (MNautilus.nt2_pair k) l);
         if forallb (fun o => existsb (Nat.eqb o) (concat ms)) (seq 1 k) then Ok tt else Raise MethodExn) = Ok tt <->
       Forall (good_entry k) l /\ forall o, 1 <= o <= k -> mentioned l o).
    { intros l. rewrite entries_ok. split.
      - destruct (rseq (map (MNautilus.nt2_pair k) l)) as [ms|] eqn:E; [|discriminate]. cbn [rbind]. apply pairs_run in E.
        destruct (forallb _ (seq 1 k)) eqn:F; [|discriminate]. intros _. split; [eauto|]. intros o Ho.
        apply (pairs_mentioned k l ms E). rewrite forallb_forall in F. specialize (F o). rewrite in_seq in F. specialize (F ltac:(lia)).
        apply existsb_exists in F. destruct F as (o' & Ho' & Eo). apply Nat.eqb_eq in Eo. congruence.
      - intros [[ms Hms] Hall]. pose proof (proj2 (pairs_run k l ms) Hms) as R. rewrite R. cbn [rbind].
        assert (F : forallb (fun o => existsb (Nat.eqb o) (concat ms)) (seq 1 k) = true).
        { apply forallb_forall. intros o Ho. apply in_seq in Ho. apply existsb_exists. exists o. split; [|apply Nat.eqb_refl].
          apply (pairs_mentioned k l ms Hms). apply Hall. lia. }
        rewrite F. reflexivity. }
    split.
    + intros H. right. split; [auto|]. split; [auto|]. split; [auto|].
      destruct (MNautilus.info_len i) as [n|] eqn:En; [|discriminate]. cbn [rbind] in H.
      destruct (Z.eqb_spec (Z.of_nat n) (Z.of_nat k - 1)) as [Hn|Hn]; cbn [negb] in H; [|discriminate].
      destruct i as [[|]|[|]|l|]; cbn [MNautilus.info_len] in En; try discriminate; injection En as <-; cbn [rbind] in H.
      * exists []. split; [auto|]. split; [cbn in *; lia|]. apply (P []). exact H.
      * exists []. split; [auto|]. split; [cbn in *; lia|]. apply (P []). exact H.
      * exists l. split; [auto|]. split; [lia|]. apply P. exact H.
    + intros [[[|] _]|(_ & _ & _ & l & Hi & Hl & HP)]; [discriminate|discriminate|]. apply P in HP.
      assert (En : MNautilus.info_len i = Ok (length l)) by (destruct Hi as [->|(-> & [->| ->])]; reflexivity).
      rewrite En. cbn [rbind]. destruct (Z.eqb_spec (Z.of_nat (length l)) (Z.of_nat k - 1)); cbn [negb]; [|lia].
      destruct Hi as [->|(-> & [->| ->])]; exact HP.
Qed.
Lemma check_n_iff {N : NumOps} (n : pyval N) : MNautilus.nt_check_n n = Ok tt <-> good_count n.
Proof.
  unfold MNautilus.nt_check_n, good_count. destruct (as_int n) as [z|].
  - destruct (Z.ltb_spec z 1); split; try discriminate; intros H'.
    + destruct H' as (z' & E & ?). injection E as <-. lia.
    + exists z. split; [auto|lia].
    + reflexivity.
  - split; [discriminate|]. intros (z & E & _). discriminate.
Qed.
Lemma array_equal_iff {N : NumOps} (a b : list N) : MNautilus.array_equal a b = true <-> Forall2 (fun x y => neqb x y = true) a b.
Proof.
  unfold MNautilus.array_equal. split.
  - revert b. induction a as [|x a IH]; intros [|y b]; cbn; try discriminate; [constructor|].
    intros H. apply andb_prop in H as [H1 H2]. apply andb_prop in H2 as [H2 H3]. constructor; [auto|]. apply IH. rewrite H1, H3. reflexivity.
  - induction 1 as [|x y a b H _ IH]; [reflexivity|]. apply andb_prop in IH as [A B]. cbn. rewrite A, H, B. reflexivity.
Qed.

(** The answer to the initial request of NAUTILUS 2. *)
Theorem C102_initial_request :
  forall (N : NumOps) start fuel (nadir : list N) (d : MNautilus.nt_dict N), 1 <= length nadir ->
  MNautilus.nt_validate (MNautilus.NV2 start fuel) nadir MNautilus.NInit d = Ok tt <->
  MNautilus.nd_back d = None /\ MNautilus.nd_prev d = None /\
  (exists n, MNautilus.nd_n d = Some n /\ good_count n) /\
  exists m i, MNautilus.nd_method d = Some m /\ MNautilus.nd_info d = Some i /\ v2_accepts (length nadir) m i.
Proof.
  intros N start fuel nadir [n b sh pv m i] Hk. cbn [MNautilus.nt_validate MNautilus.nd_n MNautilus.nd_back MNautilus.nd_prev MNautilus.nd_method MNautilus.nd_info].
  unfold MNautilus.nt_check_pref. cbn [MNautilus.nd_method MNautilus.nd_info]. split.
  - destruct n as [n|]; [|discriminate]. destruct b; [discriminate|]. destruct pv; [discriminate|].
    destruct m as [m|]; [|discriminate]. destruct i as [i|]; [|discriminate].
    intros H. destruct (MNautilus.nt2_check (length nadir) m i) as [[]|] eqn:E; [|discriminate]. cbn [rbind] in H.
    apply check_n_iff in H. apply check2_iff in E; [|auto]. repeat split; eauto 6.
  - intros (-> & -> & (n' & -> & Hn) & m' & i' & -> & -> & Hi). apply check2_iff in Hi; [|auto]. rewrite Hi. cbn [rbind]. apply check_n_iff. auto.
Qed.
Print Assumptions C102_initial_request.

(** The answer to any other request, of both methods: the step back flag is given, and not
    set at the nadir; the flag for keeping the preferences is given, and set, or else the
    answer has preferences that would be accepted for the initial request; the number of
    iterations, if given, is usable. *)
Theorem C102_next_request :
  forall (N : NumOps) (v : MNautilus.nt_variant N) (nadir z lo up : list N) di (d : MNautilus.nt_dict N),
  MNautilus.nt_validate v nadir (MNautilus.NReq z lo up di) d = Ok tt <->
  (exists b, MNautilus.nd_back d = Some b /\ (truthy b = true -> ~ Forall2 (fun x y => neqb x y = true) z nadir)) /\
  (exists u, MNautilus.nd_prev d = Some u /\
     (truthy u = false ->
      MNautilus.nt_validate v nadir MNautilus.NInit (MNautilus.MkND (Some (VInt 1)) None None None (MNautilus.nd_method d) (MNautilus.nd_info d)) = Ok tt)) /\
  (forall n, MNautilus.nd_n d = Some n -> good_count n).
Proof.
  intros N v nadir z lo up di [n b sh pv m i]. cbn [MNautilus.nt_validate MNautilus.nd_n MNautilus.nd_back MNautilus.nd_prev MNautilus.nd_method MNautilus.nd_info].
  unfold MNautilus.nt_check_pref. cbn [MNautilus.nd_method MNautilus.nd_info].
  set (C := match m, i with Some m0, Some i0 => match v with MNautilus.NV1 => MNautilus.nt1_check (length nadir) m0 i0 | MNautilus.NV2 _ _ => MNautilus.nt2_check (length nadir) m0 i0 end | _, _ => Raise MethodExn end).
  assert (HC : (do _ <- C; MNautilus.nt_check_n (VInt 1 : pyval N)) = Ok tt <-> C = Ok tt).
  { destruct C as [[]|]; cbn [rbind]; [split; reflexivity|split; discriminate]. }
  setoid_rewrite HC. clear HC. split.
  - destruct b as [b|]; cbn [key rbind]; [|discriminate].
    destruct (truthy b && MNautilus.array_equal z nadir) eqn:E; [discriminate|].
    destruct pv as [u|]; cbn [key rbind]; [|discriminate]. intros H. split; [|split].
    + exists b. split; [auto|]. intros Hb Hz. apply array_equal_iff in Hz. rewrite Hb, Hz in E. discriminate.
    + exists u. split; [auto|]. intros Hu. rewrite Hu in H. destruct C as [[]|]; [reflexivity|discriminate].
    + intros n' ->. apply check_n_iff. destruct (truthy u); [exact H|]. destruct C as [[]|]; [exact H|discriminate].
  - intros ((b' & -> & Hb) & (u & -> & Hu) & Hn). cbn [key rbind].
    assert (E : truthy b' && MNautilus.array_equal z nadir = false).
    { destruct (truthy b'); [|reflexivity]. cbn [andb]. destruct (MNautilus.array_equal z nadir) eqn:E; [|reflexivity].
      apply array_equal_iff in E. exfalso. apply Hb; auto. }
    rewrite E. assert (X : (if truthy u then Ok tt else C) = Ok tt) by (destruct (truthy u); auto).
    rewrite X. cbn [rbind]. destruct n as [n|]; [|reflexivity]. apply check_n_iff. auto.
Qed.
Print Assumptions C102_next_request.

(** False as stated: more components than objectives, NaN components and ratios, and
    entries that name one or three objectives are accepted (IEEE doubles, two and three
    objectives). *)
Definition k_nadir2 : list F64 := [1; 1]%float.
Definition k_nadir3 : list F64 := [1; 1; 1]%float.
Definition k_init (m : Z) (i : MNautilus.nt_info F64) : MNautilus.nt_dict F64 := MNautilus.MkND (Some (VInt 5)) None None None (Some (VInt m)) (Some i).
Definition k_v : MNautilus.nt_variant F64 := MNautilus.NV2 (N:=F64) ([1; 1]%float : list F64) 10.
Theorem C102_one_component_per_objective_refuted :
  MNautilus.nt_validate k_v k_nadir2 MNautilus.NInit (k_init 1 (MNautilus.PArr ([1; 2; 3]%float : list F64))) = Ok tt /\
  MNautilus.nt_validate k_v k_nadir2 MNautilus.NInit (k_init 1 (MNautilus.PArr ([nan; 2]%float : list F64))) = Ok tt /\
  MNautilus.nt_validate k_v k_nadir2 MNautilus.NInit (k_init 3 (MNautilus.PPairs [([VInt 1; VInt 2], VFloat (nan : F64) None)])) = Ok tt /\
  MNautilus.nt_validate k_v k_nadir3 MNautilus.NInit (k_init 3 (MNautilus.PPairs [([VInt 1], VInt 1); ([VInt 2; VInt 3; VInt 3], VInt 1)])) = Ok tt.
Proof. repeat split. Qed.
Print Assumptions C102_one_component_per_objective_refuted.

Example C102_hypotheses_met :
  1 <= length k_nadir3 /\
  v2_accepts (N:=F64) 3 (VInt 3) (MNautilus.PPairs [([VInt 1; VInt 2], VFloat (2%float : F64) None); ([VInt 3; VInt 1], VInt 4)]) /\
  v2_accepts (N:=F64) 3 (VInt 2) (MNautilus.PArr ([1; 2; 3]%float : list F64)) /\
  ~ v2_accepts (N:=F64) 3 (VInt 2) (MNautilus.PArr ([4; 2; 3]%float : list F64)) /\
  ~ v2_accepts (N:=F64) 3 (VInt 3) (MNautilus.PPairs [([VInt 1; VInt 2], VInt 1); ([VInt 2; VInt 1], VInt 1)]).
Proof.
  split; [cbn; lia|]. split; [apply check2_iff; [lia|reflexivity]|]. split; [apply check2_iff; [lia|reflexivity]|].
  split; intros H; apply check2_iff in H; try lia; discriminate.
Qed.

(** ** C103: iterating a request that has not been answered *)
Theorem C103_nothing_happens :
  forall (N : NumOps),
  (forall asf (q : MNavigator.nv_request N) s, nv_iterate asf q None s = (s, Raise TypeErr)) /\
  (forall av p ideal nadir (q : nb_request N) s, bs_phase s <> PEnd ->
     exists e, nb_iterate av p ideal nadir q None s = (s, Raise e) /\ (e = TypeErr \/ e = MethodExn)) /\
  (forall p rho eps ideal nadir (q : rp_request N) s, (forall x f, q <> RStop x f) ->
     rp_iterate p rho eps ideal nadir q None s = (s, Raise TypeErr)) /\
  (forall p v eps ideal nadir (q : MNautilus.nt_request N) s, (forall x f, q <> MNautilus.NStop x f) ->
     MNautilus.nt_iterate p v eps ideal nadir q None s = (s, Raise TypeErr)).
Proof.
  intros N. split; [reflexivity|]. split; [|split].
  - intros av p ideal nadir q s Hs. unfold nb_iterate, sbind, sget.
    destruct (bs_phase s); [| | | |contradiction]; destruct q; unfold sraise; try (eexists; split; [reflexivity|auto]).
  - intros p rho eps ideal nadir q s Hq. destruct q; [reflexivity|reflexivity|]. exfalso. eapply Hq; eauto.
  - intros p v eps ideal nadir q s Hq. destruct q; [reflexivity|reflexivity|]. exfalso. eapply Hq; eauto.
Qed.
Print Assumptions C103_nothing_happens.

(** Pareto Navigator: the initial request must be answered; leaving any other request
    unanswered is the same as giving an answer without any key. *)
Theorem C103_pareto_navigator :
  forall (N : NumOps) (e : pn_env N) s,
  (forall ideal nadir pos, pn_iterate e (PInit ideal nadir pos) None s = (s, Raise TypeErr)) /\
  (forall q, (forall ideal nadir pos, q <> PInit ideal nadir pos) ->
     pn_iterate e q None s = pn_iterate e q (Some (MkPD None None None None None None None)) s).
Proof.
  intros N e s. split; [reflexivity|]. intros q Hq. destruct q; try reflexivity. exfalso. eapply Hq; eauto.
Qed.
Print Assumptions C103_pareto_navigator.
