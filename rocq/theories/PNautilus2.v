(** * NAUTILUS: no IndexError in any history. *)
From Coq Require Import ZArith List Bool Lia.
From Verif Require Import Num Py Np Spec NpFacts Hoare PRpm MNautilus SNautilus PNautilus.
Import ListNotations.

Section Doi.
  Context {N : NumOps}.
  Notation vec := (list N).
  Lemma rfold_ind {A B} (f : A -> B -> res A) (I : A -> Prop) (G : B -> Prop) :
    (forall a b, I a -> G b -> match f a b with Ok a' => I a' | Raise e => e <> IndexErr end) ->
    forall l a, Forall G l -> I a -> match rfold f l a with Ok a' => I a' | Raise e => e <> IndexErr end.
  Proof.
    intros H l. induction l as [|b l IH]; intros a Hl Ha; [exact Ha|]. inversion Hl; subst. cbn [rfold].
    specialize (H a b Ha H2). destruct (f a b) as [a'|e]; cbn [rbind]; [|exact H]. apply IH; auto.
  Qed.
  Definition zin (k : nat) (z : Z) : Prop := (1 <= z <= Z.of_nat k)%Z.
  Definition pin (k : nat) (p : Z * Z * N) : Prop := zin k (fst (fst p)) /\ zin k (snd (fst p)).
  Lemma doi_set_in k (ds : vec) i d : length ds = k -> zin k i -> exists ds', doi_set ds i d = Ok ds' /\ length ds' = k /\ set_nth ds (Z.to_nat (i - 1)) d = Some ds'.
  Proof.
    intros Hl Hi. unfold doi_set. unfold zin in Hi. rewrite py_pos_nonneg by lia.
    destruct (set_ok ds (Z.to_nat (i - 1)) d) as (ds' & E1 & E2); [lia|]. exists ds'. split; [exact E1|]. split; [|exact E2]. apply set_nth_length in E2. lia.
  Qed.
  Lemma py_nth_in k (ds : vec) i : length ds = k -> zin k i -> exists d, py_nth ds (i - 1) = Ok d /\ nth_error ds (Z.to_nat (i - 1)) = Some d.
  Proof.
    intros Hl Hi. unfold zin in Hi. rewrite py_nth_nonneg by lia. unfold at_. destruct (nth_error ds (Z.to_nat (i - 1))) eqn:E; [eauto|]. apply nth_error_None in E. lia.
  Qed.
  Lemma doi_first_len k (ds : vec) p : length ds = k -> pin k p -> match doi_first ds p with Ok ds' => length ds' = k | Raise e => e <> IndexErr end.
  Proof.
    intros Hl Hp. destruct p as [[a b] r]. destruct Hp as [Ha Hb]. cbn in Ha, Hb. unfold doi_first.
    destruct (a =? 1)%Z.
    - destruct (doi_set_in k ds b r Hl Hb) as (ds' & E & G & _). rewrite E. exact G.
    - destruct (b =? 1)%Z; [|exact Hl]. unfold doi_inv. destruct (neqb r (nofZ 0)); cbn [rbind]; [congruence|].
      destruct (doi_set_in k ds a (ndiv (nofZ 1) r) Hl Ha) as (ds' & E & G & _). rewrite E. exact G.
  Qed.
  Lemma doi_entry_len k m (ds : vec) p : length ds = k -> pin k p -> match doi_entry m ds p with Ok ds' => length ds' = k | Raise e => e <> IndexErr end.
  Proof.
    intros Hl Hp. destruct p as [[a b] r]. destruct Hp as [Ha Hb]. cbn in Ha, Hb. unfold doi_entry.
    destruct (a =? m)%Z.
    - destruct (py_nth_in k ds b Hl Hb) as (d & E & _). rewrite E. cbn [rbind]. destruct (neqb d (nofZ 0)); [exact Hl|].
      unfold doi_inv. destruct (neqb r (nofZ 0)); cbn [rbind]; [congruence|].
      destruct (doi_set_in k ds a (nmul d (ndiv (nofZ 1) r)) Hl Ha) as (ds' & E' & G & _). rewrite E'. exact G.
    - destruct (b =? m)%Z; [|exact Hl]. destruct (py_nth_in k ds a Hl Ha) as (d & E & _). rewrite E. cbn [rbind]. destruct (neqb d (nofZ 0)); [exact Hl|].
      destruct (doi_set_in k ds b (nmul d r) Hl Hb) as (ds' & E' & G & _). rewrite E'. exact G.
  Qed.
  Lemma doi_pass_len k ms ps (ds : vec) : Forall (pin k) ps -> length ds = k -> match doi_pass ms ps ds with Ok ds' => length ds' = k | Raise e => e <> IndexErr end.
  Proof.
    intros Hp Hl. unfold doi_pass. apply (rfold_ind _ (fun ds => length ds = k) (fun _ => True)); [|apply Forall_forall; auto|exact Hl].
    intros a m Ha _. apply (rfold_ind _ (fun ds => length ds = k) (pin k)); auto. intros; apply doi_entry_len; auto.
  Qed.
  Lemma doi_loop_len k fuel ms ps (ds : vec) : Forall (pin k) ps -> length ds = k -> match doi_loop fuel ms ps ds with Ok ds' => length ds' = k | Raise e => e <> IndexErr end.
  Proof.
    intros Hp. revert ds. induction fuel as [|fuel IH]; intros ds Hl; cbn [doi_loop]; destruct (existsb _ ds); try exact Hl; [congruence|].
    pose proof (doi_pass_len k ms ps ds Hp Hl) as H. destruct (doi_pass ms ps ds) as [ds'|e]; cbn [rbind]; [|exact H]. apply IH. exact H.
  Qed.

  Lemma objs_in k os is : nt2_objs k os = Ok is -> Forall2 (fun (o : pyval N) i => as_int o = Some (Z.of_nat i) /\ 1 <= i <= k) os is.
  Proof.
    revert is. induction os as [|o os IH]; cbn [nt2_objs]; intros is H; [injection H as <-; constructor|].
    destruct (as_int o) as [z|] eqn:E; [|discriminate]. destruct (Z.leb_spec z 0); [discriminate|]. destruct (Z.leb_spec z (Z.of_nat k)); [|discriminate].
    apply rmap_ok in H as (is' & H & ->). constructor; auto. rewrite E, Z2Nat.id by lia. split; [reflexivity|lia].
  Qed.
  (** A validated pair, as numbers. *)
  Lemma pair_in k e is : nt2_pair k e = Ok is -> length (fst e) = 2 ->
    exists i j r, is = [i; j] /\ doi_pair e = Ok (Z.of_nat i, Z.of_nat j, r) /\ 1 <= i <= k /\ 1 <= j <= k /\ ratio_val (snd e) = Some r /\ nleb r (nofZ 0) = false /\
      int_is (N:=N) (nth 0 (fst e) VNone) i /\ int_is (N:=N) (nth 1 (fst e) VNone) j.
  Proof.
    unfold nt2_pair. intros H HL. apply rbind_ok in H as (os & Ho & H). destruct (ratio_val (snd e)) as [r|] eqn:Er; [|discriminate].
    destruct (nleb r (nofZ 0)) eqn:Hr; [discriminate|]. injection H as <-. apply objs_in in Ho.
    destruct e as [[|o1 [|o2 [|]]] T]; try discriminate. cbn [fst snd] in *. inversion Ho as [|? i ? ? [E1 B1] Ho1]; subst. inversion Ho1 as [|? j ? ? [E2 B2] Ho2]; subst. inversion Ho2; subst.
    exists i, j, r. unfold doi_pair. cbn [fst snd]. rewrite Er, E1, E2. unfold int_is. cbn [nth]. auto 10.
  Qed.
  Lemma pairs_in k l ms : rseq (map (nt2_pair k) l) = Ok ms -> Forall (fun e => length (fst e) = 2) l ->
    exists ps, rseq (map doi_pair l) = Ok ps /\ Forall (pin k) ps /\
      Forall2 (fun e (q : Z * Z * N) => exists i j r, q = (Z.of_nat i, Z.of_nat j, r) /\ 1 <= i <= k /\ 1 <= j <= k /\ ratio_val (snd e) = Some r /\ nleb r (nofZ 0) = false /\
         exists oi oj, fst e = [oi; oj] /\ int_is oi i /\ int_is oj j) l ps.
  Proof.
    revert ms. induction l as [|e l IH]; intros ms H HL; [exists []; cbn; repeat split; constructor|].
    cbn [map] in H. destruct (nt2_pair k e) as [is|] eqn:E; [|discriminate]. cbn [rseq] in H. apply rmap_ok in H as (ms' & H & _).
    inversion HL as [|? ? HL1 HL2]; subst. destruct (IH _ H HL2) as (ps & E1 & F1 & F2). destruct (pair_in _ _ _ E HL1) as (i & j & r & _ & Ep & Bi & Bj & Er & Hr & I1 & I2).
    exists ((Z.of_nat i, Z.of_nat j, r) :: ps). cbn [map rseq]. rewrite Ep. cbn [rseq]. rewrite E1. split; [reflexivity|]. split; constructor; auto.
    - split; unfold zin; cbn; lia.
    - exists i, j, r. repeat (split; [solve [auto]|]). destruct e as [[|o1 [|o2 [|]]] T]; try discriminate. cbn in *. eauto.
  Qed.
  Lemma doi_noindex fuel k l ms : 0 < k -> rseq (map (nt2_pair k) l) = Ok ms -> Forall (fun e => length (fst e) = 2) l ->
    nt2_doi (N:=N) fuel k l <> Raise IndexErr.
  Proof.
    intros Hk H HL. destruct (pairs_in _ _ _ H HL) as (ps & E & F & _). unfold nt2_doi. rewrite E. cbn [rbind].
    destruct (set_ok (repeat (nofZ 0) k : vec) 0 (nofZ 1)) as (ds & E1 & E2); [rewrite repeat_length; lia|]. rewrite E1. cbn [rbind].
    apply set_nth_length in E2. rewrite repeat_length in E2.
    pose proof (rfold_ind doi_first (fun ds => length ds = k) (pin k) (doi_first_len k) ps ds F E2) as G.
    destruct (rfold doi_first ps ds) as [ds1|e]; cbn [rbind]; [|congruence].
    pose proof (doi_loop_len k fuel (doi_missing ds1) ps ds1 F G) as G2. destruct (doi_loop _ _ _ _); congruence.
  Qed.
End Doi.

Section Reach.
  Context {N : NumOps} (p : nt_problem N) (v : nt_variant N) (eps : N) (k : nat) (ideal nadir : list N).
  Context (WF : nt_wf k p v ideal nadir) (HN : nt_no_index_errors p).
  Notation vec := (list N).

  Lemma weights_v1 d : v = NV1 -> weights_safe v eps ideal nadir d.
  Proof.
    intros ->. intros m i _ _. unfold nt_weights, nt1_factors. destruct (py_eq m 1); [destruct i; discriminate|]. destruct (py_eq m 2); [destruct i; discriminate|discriminate].
  Qed.
  Lemma weights_ok d : (v = NV1 \/ nt_pairs d) -> nt_check_pref v (length nadir) d = Ok tt -> weights_safe v eps ideal nadir d.
  Proof.
    intros H HC. destruct H as [H|HP]; [apply weights_v1, H|]. pose proof WF as WF'. destruct v as [|start fuel].
    { intros m i _ _. unfold nt_weights, nt1_factors. destruct (py_eq m 1); [destruct i; discriminate|]. destruct (py_eq m 2); [destruct i; discriminate|discriminate]. }
    intros m i Em Ei. unfold nt_check_pref in HC. rewrite Em, Ei in HC. cbn [nt_weights]. unfold nt2_factors, nt2_check in *.
    destruct (py_eq m 1 || py_eq m 2) eqn:E12; [destruct i; discriminate|]. cbn [orb] in HC. destruct (py_eq m 3); [|discriminate]. cbn [negb] in HC.
    destruct i as [w|w|l|]; try discriminate. apply rbind_ok in HC as (n & _ & HC). destruct (negb _); [discriminate|]. apply rbind_ok in HC as (ms & Hms & _).
    destruct WF' as (W0 & W1 & W2 & _). pose proof (doi_noindex fuel (length nadir) l ms ltac:(lia) Hms (HP _ Ei)) as G.
    destruct (nt2_doi fuel (length nadir) l); cbn [rmap]; congruence.
  Qed.
  Lemma check_n_ok (o : pyval N) : nt_check_n o = Ok tt -> exists m, as_int o = Some m /\ (1 <= m)%Z.
  Proof. unfold nt_check_n. destruct (as_int o) as [m|]; [|discriminate]. destruct (Z.ltb_spec m 1); [discriminate|eauto]. Qed.
  (** What an accepted answer to a request says. *)
  Lemma validate_req z lo up e d : nt_validate v nadir (NReq z lo up e) d = Ok tt ->
    (exists b u, nd_back d = Some b /\ nd_prev d = Some u /\ (truthy b = true -> array_equal z nadir = false) /\
       (truthy u = false -> nt_check_pref v (length nadir) d = Ok tt)) /\
    (forall o, nd_n d = Some o -> exists m, as_int o = Some m /\ (1 <= m)%Z).
  Proof.
    unfold nt_validate, key. intros H. destruct (nd_back d) as [b|]; cbn [rbind] in H; [|discriminate].
    destruct (truthy b && array_equal z nadir) eqn:Eb; [discriminate|]. destruct (nd_prev d) as [u|]; cbn [rbind] in H; [|discriminate].
    split.
    - exists b, u. repeat split; auto; intros E; rewrite E in *; cbn [andb] in *; [exact Eb|]. destruct (nt_check_pref v (length nadir) d) as [[]|]; [reflexivity|discriminate].
    - intros o Eo. rewrite Eo in H. apply rbind_ok in H as (_ & _ & H). apply check_n_ok, H.
  Qed.
  Lemma validate_init d : nt_validate v nadir NInit d = Ok tt ->
    nt_check_pref v (length nadir) d = Ok tt /\ nd_back d = None /\ nd_prev d = None /\ exists o m, nd_n d = Some o /\ as_int o = Some m /\ (1 <= m)%Z.
  Proof.
    unfold nt_validate. destruct (nd_n d) as [o|]; [|discriminate]. destruct (nd_back d); [discriminate|]. destruct (nd_prev d); [discriminate|].
    intros H. apply rbind_ok in H as ([] & H1 & H2). apply check_n_ok in H2 as (m & Em & Hm). eauto 10.
  Qed.

  (** The weights matter only if new preferences are taken, and then they have been validated. *)
  Lemma weights_req z lo up e d : (v = NV1 \/ nt_pairs d) -> nt_validate v nadir (NReq z lo up e) d = Ok tt ->
    (exists u, nd_prev d = Some u /\ truthy u = true) \/ weights_safe v eps ideal nadir d.
  Proof.
    intros H HV. apply validate_req in HV as ((b & u & _ & Eu & _ & HC) & _). destruct (truthy u) eqn:Et; [left; eauto|right]. apply weights_ok; auto.
  Qed.
  (** handle_request with unchanged preferences does not compute weights: any answer behaves like one without. *)
  Lemma handle_prev d u s : nd_prev d = Some u -> truthy u = true ->
    nt_handle p v eps ideal nadir d s = nt_handle p v eps ideal nadir (MkND (nd_n d) (nd_back d) (nd_short d) (nd_prev d) None None) s.
  Proof.
    intros Eu Et. unfold nt_handle, nt_forward, nt_change. cbn [nd_n nd_back nd_short nd_prev]. rewrite Eu. cbn [key]. 
    unfold sbind, lift, smod, sget, sret. destruct (nd_n d) as [o|]; cbn; [destruct (as_int o); cbn|]; try reflexivity.
    - destruct (Z.leb _ 1); [reflexivity|]. destruct (nd_back d); cbn; [|reflexivity]. destruct (truthy p0); cbn; [|rewrite Et; reflexivity].
      destruct (nd_short d); cbn; [|reflexivity]. destruct (truthy p1); [reflexivity|]. rewrite Et. reflexivity.
    - destruct (Z.leb _ 1); [reflexivity|]. destruct (nd_back d); cbn; [|reflexivity]. destruct (truthy p0); cbn; [|rewrite Et; reflexivity].
      destruct (nd_short d); cbn; [|reflexivity]. destruct (truthy p1); [reflexivity|]. rewrite Et. reflexivity.
  Qed.

  Definition nt_ok (s : nt_state N) (qs : list (nt_request N)) : Prop :=
    (qs = [NInit] /\ ns_step s = 1) \/ (1 < length qs /\ room s).
  Definition nt_allowed (s : nt_state N) (qs : list (nt_request N)) (q : nt_request N) (r : option (nt_dict N)) : Prop :=
    match v with NV1 => nt_no_restart s qs q r | NV2 _ _ => nt_v2_careful s qs q r end.

  Lemma step_ok s qs q resp s' out : nt_ok s qs -> In q qs -> (forall d, resp = Some d -> nt_validate v nadir q d = Ok tt) -> nt_allowed s qs q resp ->
    nt_iterate p v eps ideal nadir q resp s = (s', out) ->
    nt_ok s' (match out with Ok (Some q') => q' :: qs | _ => qs end) /\ out <> Raise IndexErr.
  Proof.
    intros HS Hq HV HA HI. destruct WF as (W0 & W1 & W2 & W3 & W4). destruct HN as (N1 & N2).
    assert (HF : forall x, length (np_eval p x) = length ideal) by (intros x; rewrite W4; auto).
    assert (HR : nt_no_restart s qs q resp) by (unfold nt_allowed in HA; destruct v; [exact HA|exact (proj1 HA)]).
    destruct q as [|z lo up e|x f]; cbn [nt_iterate] in HI.
    - destruct resp as [d|]; cbn [nt_resp] in HI; [|unfold sbind, lift in HI; injection HI as <- <-; split; [exact HS|discriminate]].
      specialize (HV d eq_refl). destruct (validate_init _ HV) as (HC & _ & _ & o & m & Eo & Em & Hm).
      assert (qs = [NInit]) as Hqs by (apply HR; reflexivity).
      assert (H1 : ns_step s = 1).
      { destruct HS as [[_ H]|[H _]]; [exact H|]. rewrite Hqs in H. cbn in H. lia. }
      assert (HW : weights_safe v eps ideal nadir d).
      { apply weights_ok; [|exact HC]. unfold nt_allowed in HA. destruct v; [left; reflexivity|right]. destruct HA as [_ HA]. apply (HA d eq_refl). }
      unfold sbind at 1 in HI. cbn [lift] in HI.
      destruct (nt_handle_initial p v eps ideal nadir d s) as [s1 r1] eqn:E1. unfold sbind in HI. rewrite E1 in HI.
      pose proof (hs_run _ _ _ _ _ _ _ (initial_shape p v eps ideal nadir N1 N2 HF d o m Eo Em Hm HW) H1 E1) as G.
      destruct r1 as [q1|e]; cbn in HI; injection HI as <- <-.
      + split; [right|discriminate]. split; [rewrite Hqs; cbn; lia|]. exists (Z.to_nat (m + 2)), 1, m, m. split; [exact G|lia].
      + split; [left; split; [exact Hqs|apply G]|]. intros E. injection E as ->. apply (proj2 G). reflexivity.
    - destruct resp as [d|]; cbn [nt_resp] in HI; [|unfold sbind, lift in HI; injection HI as <- <-; split; [exact HS|discriminate]].
      specialize (HV d eq_refl). assert (HR' : 1 < length qs /\ room s).
      { destruct HS as [[H _]|H]; [|exact H]. exfalso. rewrite H in Hq. destruct Hq as [Hq|[]]. discriminate. }
      destruct HR' as [HL HRo]. destruct (validate_req _ _ _ _ _ HV) as (_ & HD).
      assert (HP : v = NV1 \/ nt_pairs d).
      { unfold nt_allowed in HA. destruct v; [left; reflexivity|right]. destruct HA as [_ HA]. apply (HA d eq_refl). }
      assert (HC : change_ok v s d).
      { unfold change_ok. unfold nt_allowed in HA. destruct v; [exact I|]. intros o m Eo Em. destruct HA as [_ HA]. apply (proj2 (HA d eq_refl) o m); [discriminate|exact Eo|exact Em]. }
      unfold sbind at 1 in HI. cbn [lift] in HI.
      assert (G : hs (fun x => x = s) (nt_handle p v eps ideal nadir d) (fun _ => room) (fun e s => room s /\ e <> IndexErr)).
      { destruct (weights_req _ _ _ _ _ HP HV) as [(u & Eu & Et)|HW].
        - intros x ->. rewrite (handle_prev d u s Eu Et).
          apply (handle_shape p v eps ideal nadir N1 N2 HF (MkND (nd_n d) (nd_back d) (nd_short d) (nd_prev d) None None) s HRo HC HD); [|reflexivity].
          intros m i E. discriminate.
        - apply (handle_shape p v eps ideal nadir N1 N2 HF d s HRo HC HD HW). }
      pose proof (hs_run _ _ _ _ _ _ _ G eq_refl HI) as G1. destruct out as [[q1|]|e0].
      + split; [right|discriminate]. split; [cbn; lia|exact G1].
      + split; [right|discriminate]. split; [exact HL|exact G1].
      + split; [right; split; [exact HL|apply G1]|]. intros E. injection E as ->. apply (proj2 G1). reflexivity.
    - unfold sret in HI. injection HI as <- <-. split; [|discriminate]. destruct HS as [[H _]|[H H']].
      + exfalso. rewrite H in Hq. destruct Hq as [Hq|[]]. discriminate.
      + right. split; [cbn; lia|exact H'].
  Qed.

  Lemma reach_ok s qs : nt_reach p v eps ideal nadir nt_allowed s qs -> nt_ok s qs.
  Proof.
    intros H. induction H as [|s qs q resp s' out HR IH Hq HV HA HI]; [left; split; reflexivity|].
    apply (step_ok s qs q resp s' out IH Hq HV HA HI).
  Qed.
End Reach.
