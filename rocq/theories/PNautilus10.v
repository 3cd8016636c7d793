(** * NAUTILUS: steps back, and calls that fail. *)
From Coq Require Import ZArith List Bool Lia.
From Verif Require Import Num Py Np Spec NpFacts Hoare PRpm MNautilus SNautilus PNautilus PNautilus2 PNautilus3 PNautilus4 PNautilus5.
Import ListNotations.

Section Back.
  Context {N : NumOps} (p : nt_problem N) (v : nt_variant N) (eps : N) (k : nat) (ideal nadir : list N).
  Context (WF : nt_wf k p v ideal nadir).
  Notation vec := (list N).

  Definition tracked (n : Z) (qs : list (nt_request N)) (st : list vec) (w : vw N) : Prop :=
    (exists x f qs', qs = NStop x f :: qs') \/
    (exists rest, st = vz w :: vz0 w :: rest /\ vst w = S (length rest) /\ vn w = n /\ (Z.of_nat (vst w) + vl w = n + 1)%Z).
  Lemma trail_tracked n s q qs st : nt_trail p v eps ideal nadir (asks_once n) s (q :: qs) st ->
    seen p v k ideal nadir [nt_start v nadir] (tracked n) s q qs st.
  Proof.
    intros H. apply (run_seen p v eps k ideal nadir WF trail_next [nt_start v nadir] (asks_once n)); [..|exact H].
    - intros q0 d [_ Hd] Hq0. right; auto.
    - intros d m x z' q0 [HA _] HV HAs Hm HC HPt HL (b & e & -> & _). cbn [trail_next]. right. exists []. cbn [vz vz0 vst vn vl length].
      assert (m = n) by (apply (asks_fun d); auto). subst m. repeat split; auto. lia.
    - cbn zeta. intros z lo up e qs0 h w d r w' [(x & f & qs' & E)|(rest & -> & R1 & R2 & R3)] Ez Ef Hst _ _ _ _ _ _ [_ HA] HV HS; [discriminate|].
      specialize (HA ltac:(discriminate)).
      inversion HS as [n' l' HC Hl|n' l' z' q' HC Hl (b & Eb & Tb) P Hpt Hsh|n' l' x z' q' HC Hl (b & Eb & Tb) P Hc Hpt Hsh|n' l' z' q' HC Hl (b & Eb & Tb) S' Hpt Hsh|n' l' HC Hl B S' P|n' l' x z' q' HC Hl (b & Eb & Tb) S' P Hc Hpt Hsh]; subst w';
        rewrite (counters_none v d _ _ HA) in HC; injection HC as <- <-.
      + left. eauto.
      + destruct Hsh as (b' & e' & -> & _). cbn [trail_next]. rewrite Eb, Tb. right. exists (vz0 w :: rest). cbn [vz vz0 vst vn vl length]. repeat split; auto; lia.
      + destruct Hsh as (b' & e' & -> & _). cbn [trail_next]. rewrite Eb, Tb. right. exists (vz0 w :: rest). cbn [vz vz0 vst vn vl length]. repeat split; auto; lia.
      + destruct Hsh as (b' & e' & -> & _). cbn [trail_next]. rewrite Eb, Tb. right. exists rest. cbn [vz vz0 vst vn vl length tl]. repeat split; auto; lia.
      + destruct Hsh as (b' & e' & -> & _). cbn [trail_next]. rewrite Eb, Tb. right. exists rest. cbn [vz vz0 vst vn vl length tl]. repeat split; auto; lia.
    - intros qs0 h w d x f _. left. eauto.
  Qed.

  (** The state when a request is on the table. *)
  Lemma trail_state n s z lo up e qs st : nt_trail p v eps ideal nadir (asks_once n) s (NReq z lo up e :: qs) st ->
    exists L w rest, view L w s /\ vok k L w /\ vf w = np_eval p (vx w) /\ z = vz w /\ st = vz w :: vz0 w :: rest /\ vst w = S (length rest) /\
      (vl w = n + 2 - Z.of_nat (length st))%Z.
  Proof.
    intros H. apply trail_tracked in H. destruct H as [(_ & E & _)|(L & w & V1 & V2 & V3 & [(x & f & qs' & E)|(rest & -> & R1 & R2 & R3)] & [(b & e' & E' & _)|E'])]; try discriminate.
    injection E' as -> -> -> ->. exists L, w, rest. repeat (split; [solve [auto]|]). cbn [length]. lia.
  Qed.

  (** ** Failing calls *)
  Lemma solve_same L st n l z0 d s s' e : 1 <= st < L -> pre1 L st n l z0 s -> nt_solve p v eps ideal nadir d s = (s', Raise e) -> s' = s.
  Proof.
    intros HL [HS HZ] H. unfold nt_solve, sbind, lift in H.
    destruct (key (nd_method d)) as [m|]; [|injection H as <- _; reflexivity]. destruct (key (nd_info d)) as [i|]; [|injection H as <- _; reflexivity].
    destruct (nt_weights v m i nadir (nt_utopian ideal eps)) as [w|]; [|injection H as <- _; reflexivity]. unfold sget in H.
    destruct (slot (ns_zs s) (ns_step s - 1)) as [q|]; [|injection H as <- _; reflexivity].
    destruct (np_min p w nadir (nt_utopian ideal eps) q (np_x0 p)) as [x|]; [|injection H as <- _; reflexivity].
    exfalso. unfold shape in HS. destruct HS as (S1 & S2 & S3 & S4 & S5 & S6 & _).
    unfold nput, sbind, sget, lift, smod in H.
    destruct (set_ok (ns_xs s) (ns_step s) (Some x)) as (l1 & E1 & _); [lia|]. rewrite E1 in H. cbn [u_xs ns_fs ns_step] in H.
    destruct (set_ok (ns_fs s) (ns_step s) (Some (np_eval p x))) as (l2 & E2 & _); [lia|]. rewrite E2 in H. discriminate H.
  Qed.
  Hypothesis HE : forall i z x0, exists x, np_ecm p i z x0 = Ok x.
  Lemma no_ecm e : ecm_fault p e -> False.
  Proof. intros (i & z & H). destruct (HE i z (np_x0 p)) as (x & Hx). congruence. Qed.
  Lemma smr_same L st n l z0 d s s' e : 1 <= st -> st + nt_off v < L -> length z0 = k -> l <> 0%Z -> pre1 L st n l z0 s ->
    sbind (nt_solve p v eps ideal nadir d) (fun _ => sbind nt_move (fun _ => nt_report p v ideal nadir)) s = (s', Raise e) -> s' = s.
  Proof.
    intros H1 HL Hz Hl HP H. unfold sbind in H. pose proof (solve_view p v eps ideal nadir d L st n l z0 ltac:(lia) s HP) as G.
    destruct (nt_solve p v eps ideal nadir d s) as [s1 [[]|e1]] eqn:E1; [|injection H as <- <-; eapply solve_same; [|exact HP|exact E1]; lia].
    destruct G as (x & G1 & _). exfalso. assert (Hf : length (np_eval p x) = k) by apply WF.
    destruct (move_view k L st n l z0 x (np_eval p x) ltac:(lia) Hz Hf Hl) as (z' & E & Hz' & M). specialize (M s1 G1).
    destruct (nt_move s1) as [s2 [[]|e2]]; [|destruct M].
    pose proof (report_view p v k ideal nadir WF L (MkVW st n l z0 z' x (np_eval p x)) H1 HL Hz' Hf s2 M) as R.
    rewrite H in R. exact (no_ecm e R).
  Qed.
  Lemma half_fine L w s : view L w s -> vok k L w -> vst w + nt_off v < L -> forall s' e, nt_half p v ideal nadir s = (s', Raise e) -> False.
  Proof.
    intros HV (O1 & _ & _ & O4 & O5 & O6) HL s' e H. destruct (half_ok k (vz w) (vz0 w) O5 O4) as (z' & Ez & Hz').
    assert (Est : ns_step s = vst w) by apply HV.
    unfold nt_half, sbind, lift, sget in H. rewrite Est, (slot_some _ _ (vz w)), (slot_some _ _ (vz0 w)), Ez in H by apply HV. cbv beta iota in H.
    unfold nput, sbind, sget, lift, smod in H.
    destruct (set_ok (ns_zs s) (vst w) (Some z')) as (l1 & E1 & E2).
    { destruct HV as [_ HV]. apply nth_error_Some. congruence. }
    rewrite E1 in H. set (w2 := MkVW (vst w) (vn w) (vl w) (vz0 w) z' (vx w) (vf w)).
    assert (HV2 : view L w2 (u_zs s l1)).
    { pose proof (set_nth_get_same _ _ _ _ E2) as G1. assert (G2 : nth_error l1 (vst w - 1) = nth_error (ns_zs s) (vst w - 1)) by (eapply set_nth_get_other; [exact E2|lia]).
      apply set_nth_length in E2. unfold view, pre2, pre1, shape, u_zs in *. cbn in *. intuition congruence. }
    pose proof (report_view p v k ideal nadir WF L w2 O1 HL Hz' O6 (u_zs s l1) HV2) as R. rewrite H in R. exact (no_ecm e R).
  Qed.
  Lemma handle_half d s : nd_n d = None -> says (nd_back d) true -> says (nd_short d) true -> (1 < ns_left s)%Z ->
    nt_handle p v eps ideal nadir d s = sbind (nt_half p v ideal nadir) (fun q => sret (Some q)) s.
  Proof.
    intros Hn (b & Eb & Tb) (h & Eh & Th) Hl. unfold nt_handle, nt_change. rewrite Hn, Eb, Eh. cbn [key]. unfold sbind, lift, sget, sret.
    destruct (Z.leb_spec (ns_left s) 1) as [G|G]; [lia|]. rewrite Tb, Th. reflexivity.
  Qed.
  (** A step back that fails leaves the object as it was. *)
  Lemma back_same L w s d s' e : view L w s -> vok k L w -> nd_n d = None -> says (nd_back d) true ->
    nt_handle p v eps ideal nadir d s = (s', Raise e) -> s' = s.
  Proof.
    intros HV HO Hn (b & Eb & Tb) H. assert (HO' := HO). destruct HO' as (O1 & O2 & O3 & O4 & O5 & O6). assert (Hoff : nt_off v <= 1) by (destruct v; cbn; lia).
    assert (Est : ns_step s = vst w) by apply HV. assert (El : ns_left s = vl w) by apply HV.
    unfold nt_handle in H. unfold sbind at 1 in H. unfold nt_change in H. rewrite Hn in H. unfold sret at 1 in H. unfold sbind at 1 in H. unfold sget at 1 in H. rewrite El in H.
    destruct (Z.leb_spec (vl w) 1) as [G|G].
    - exfalso. unfold sbind, smod, lift in H. rewrite Est in H. unfold at_ in H. replace (nth_error (ns_xs s) (vst w)) with (Some (Some (vx w))) in H by (symmetry; apply HV).
      replace (nth_error (ns_fs s) (vst w)) with (Some (Some (vf w))) in H by (symmetry; apply HV). discriminate H.
    - rewrite Eb in H. unfold sbind at 1 in H. unfold lift at 1 in H. cbn [key] in H. rewrite Tb in H. cbn [negb] in H.
      unfold sbind at 1 in H. unfold lift at 1 in H. destruct (nd_short d) as [h|]; cbn [key] in H; [|injection H as <- _; reflexivity].
      destruct (truthy h).
      + exfalso. unfold sbind in H. destruct (nt_half p v ideal nadir s) as [s1 [q|e1]] eqn:E1; [discriminate H|]. eapply half_fine; eauto. lia.
      + unfold sbind at 1 in H. unfold lift at 1 in H. destruct (nd_prev d) as [u|]; cbn [key] in H; [|injection H as <- _; reflexivity].
        destruct (truthy u); [discriminate H|].
        assert (HP : pre1 L (vst w) (vn w) (vl w) (vz0 w) s) by apply HV.
        destruct (sbind (nt_solve p v eps ideal nadir d) (fun _ => sbind nt_move (fun _ => nt_report p v ideal nadir)) s) as [s1 [q|e1]] eqn:E1.
        * exfalso. unfold sbind in *. destruct (nt_solve p v eps ideal nadir d s) as [sa [[]|]]; [|discriminate]. destruct (nt_move sa) as [sb [[]|]]; [|discriminate].
          rewrite E1 in H. discriminate H.
        * assert (s1 = s) by (eapply smr_same; [..|exact HP|exact E1]; auto; lia). subst s1.
          unfold sbind in *. destruct (nt_solve p v eps ideal nadir d s) as [sa [[]|]]; [|congruence]. destruct (nt_move sa) as [sb [[]|]]; [|congruence].
          rewrite E1 in H. congruence.
  Qed.
  (** A step forward with new preferences that fails has only moved the counters. *)
  Lemma forward_same L w s d s' e : view L w s -> vok k L w -> nd_n d = None -> says (nd_back d) false ->
    nt_handle p v eps ideal nadir d s = (s', Raise e) -> says (nd_prev d) false -> s' = u_next s /\ (1 < vl w)%Z.
  Proof.
    intros HV HO Hn (b & Eb & Tb) H (u & Eu & Tu). assert (HO' := HO). destruct HO' as (O1 & O2 & O3 & O4 & O5 & O6). assert (Hoff : nt_off v <= 1) by (destruct v; cbn; lia).
    assert (Est : ns_step s = vst w) by apply HV. assert (El : ns_left s = vl w) by apply HV.
    unfold nt_handle in H. unfold sbind at 1 in H. unfold nt_change in H. rewrite Hn in H. unfold sret at 1 in H. unfold sbind at 1 in H. unfold sget at 1 in H. rewrite El in H.
    destruct (Z.leb_spec (vl w) 1) as [G|G].
    - exfalso. unfold sbind, smod, lift in H. rewrite Est in H. unfold at_ in H. replace (nth_error (ns_xs s) (vst w)) with (Some (Some (vx w))) in H by (symmetry; apply HV).
      replace (nth_error (ns_fs s) (vst w)) with (Some (Some (vf w))) in H by (symmetry; apply HV). discriminate H.
    - split; [|exact G]. rewrite Eb in H. unfold sbind at 1 in H. unfold lift at 1 in H. cbn [key] in H. rewrite Tb in H. cbn [negb] in H.
      assert (HP : pre1 L (S (vst w)) (vn w) (vl w - 1) (vz w) (u_next s)).
      { unfold view, pre2, pre1, shape, u_next in *. cbn in *. replace (vst w - 0) with (vst w) by lia. intuition congruence. }
      unfold sbind in H. destruct (nt_forward p v eps ideal nadir d s) as [s1 [q|e1]] eqn:E1; [discriminate H|]. injection H as <- <-.
      unfold nt_forward, sbind, smod in E1. rewrite Eu in E1. unfold lift at 1 in E1. cbn [key] in E1. rewrite Tu in E1.
      eapply smr_same; [..|exact HP|exact E1]; auto; lia.
  Qed.
  (** The same preferences as a step back on the counters moved. *)
  Lemma forward_as_back s d d' : nd_n d = None -> nd_n d' = None -> says (nd_back d) false -> says (nd_prev d) false ->
    says (nd_back d') true -> says (nd_short d') false -> says (nd_prev d') false -> nd_method d' = nd_method d -> nd_info d' = nd_info d -> (2 < ns_left s)%Z ->
    nt_handle p v eps ideal nadir d' (u_next s) = nt_handle p v eps ideal nadir d s.
  Proof.
    intros Hn Hn' (b & Eb & Tb) (u & Eu & Tu) (b' & Eb' & Tb') (h & Eh & Th) (u' & Eu' & Tu') Em Ei Hl.
    assert (Es : forall t, nt_solve p v eps ideal nadir d' t = nt_solve p v eps ideal nadir d t) by (intros t; unfold nt_solve; rewrite Em, Ei; reflexivity).
    unfold nt_handle, nt_change. rewrite Hn, Hn', Eb, Eb', Eh, Eu'. unfold nt_forward. rewrite Eu. cbn [key].
    unfold sbind, lift, sget, sret, smod. cbn [u_next ns_left].
    destruct (Z.leb_spec (ns_left s - 1) 1) as [G|G]; [lia|]. destruct (Z.leb_spec (ns_left s) 1) as [G'|G']; [lia|].
    rewrite Tb, Tb', Th, Tu, Tu'. cbn [negb]. fold (u_next s). rewrite Es. destruct (nt_solve p v eps ideal nadir d (u_next s)) as [sa [[]|ea]]; [|reflexivity].
    destruct (nt_move sa) as [sb [[]|eb]]; [|reflexivity]. destruct (nt_report p v ideal nadir sb) as [sc [q|ec]]; reflexivity.
  Qed.
End Back.

(** The initial request starts afresh. *)
Lemma initial_afresh {N : NumOps} (p : nt_problem N) v eps ideal nadir d s1 s2 : ns_step s1 = ns_step s2 ->
  nd_n d = None \/ (exists o, nd_n d = Some o /\ as_int o = None) \/
  nt_handle_initial p v eps ideal nadir d s1 = nt_handle_initial p v eps ideal nadir d s2.
Proof.
  intros E. destruct (nd_n d) as [o|] eqn:Eo; [right|left; reflexivity]. destruct (as_int o) as [n|] eqn:En; [right|left; eauto].
  unfold nt_handle_initial. rewrite Eo. cbn [key]. unfold sbind, lift, smod, sget. rewrite En, E. reflexivity.
Qed.
Lemma initial_step_kept {N : NumOps} (p : nt_problem N) v eps ideal nadir d s s' r : ns_step s = 1 -> bal s ->
  nt_handle_initial p v eps ideal nadir d s = (s', r) -> ns_step s' = 1.
Proof.
  intros E B H. pose proof (initial_ctr p eps ideal nadir v d s (conj E B)) as G. rewrite H in G. destruct r; apply G.
Qed.
