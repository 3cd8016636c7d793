(** * NAUTILUS: invariants of sessions. *)
From Coq Require Import ZArith List Bool Lia.
From Verif Require Import Num Py Np Spec NpFacts Hoare PRpm MNautilus SNautilus PNautilus PNautilus2 PNautilus3.
Import ListNotations.

Section Path.
  Context {N : NumOps} (p : nt_problem N) (v : nt_variant N) (eps : N) (k : nat) (ideal nadir : list N).
  Context (WF : nt_wf k p v ideal nadir).
  Notation vec := (list N).
  Notation start := (nt_start v nadir).
  (** The answers, and what is to be shown of the requests (the last one first)
      and the view. *)
  Context {G : Type} (g : G -> nt_request N -> nt_dict N -> nt_request N -> G) (g0 : G)
          (A : nt_request N -> nt_dict N -> Prop) (I : list (nt_request N) -> G -> vw N -> Prop).
  Context (HA : forall q d, A q d -> q <> NInit -> v = NV1 \/ nd_n d = None).
  Context (I0 : forall d m x z' q, A NInit d -> nt_validate v nadir NInit d = Ok tt -> asks d m -> (1 <= m)%Z ->
                 chosen p v eps ideal nadir d start x -> nt_point m start (np_eval p x) = Ok z' ->
                 length z' = k -> shown p v ideal nadir z' (np_eval p x) q ->
                 I [q; NInit] (g g0 NInit d q) (MkVW 1 m m start z' x (np_eval p x))).
  Context (IS : forall z lo up e qs h w d r w', let q := NReq z lo up e in
                 I (q :: qs) h w -> z = vz w -> vf w = np_eval p (vx w) -> 1 <= vst w ->
                 length (vz0 w) = k -> length (vz w) = k -> length (vf w) = k ->
                 length (vz0 w') = k -> length (vz w') = k -> length (vf w') = k ->
                 A q d -> nt_validate v nadir q d = Ok tt ->
                 vstep p v eps ideal nadir d w (Some r) w' -> I (r :: q :: qs) (g h q d r) w').
  Context (IR : forall qs h w d x f, I (NStop x f :: qs) h w -> I (NStop x f :: NStop x f :: qs) (g h (NStop x f) d (NStop x f)) w).

  Definition seen (s : nt_state N) (q : nt_request N) (qs : list (nt_request N)) (h : G) : Prop :=
    (qs = [] /\ q = NInit /\ s = nt_init /\ h = g0) \/
    (exists L w, view L w s /\ vok k L w /\ vf w = np_eval p (vx w) /\ I (q :: qs) h w /\
       (shown p v ideal nadir (vz w) (vf w) q \/ q = NStop (Some (vx w)) (Some (vf w)))).

  Lemma seen_step s q qs h d s' q' : seen s q qs h -> nt_validate v nadir q d = Ok tt -> A q d ->
    nt_iterate p v eps ideal nadir q (Some d) s = (s', Ok (Some q')) -> seen s' q' (q :: qs) (g h q d q').
  Proof.
    intros HS HV HAd HI. right. destruct HS as [(-> & -> & Es & ->)|(L & w & V1 & V2 & V3 & V4 & V5)].
    - cbn [nt_iterate nt_resp] in HI. unfold sbind at 1 in HI. cbn [lift] in HI.
      destruct (validate_init _ _ _ HV) as (HC & _ & _ & o & m & Eo & Em & Hm).
      destruct (nt_handle_initial p v eps ideal nadir d s) as [s1 r1] eqn:E1. unfold sbind in HI. rewrite E1 in HI.
      assert (Hst : ns_step s = 1) by (rewrite Es; reflexivity).
      pose proof (hs_run _ _ _ _ _ _ _ (initial_view p v eps k ideal nadir WF d o m Eo Em Hm) Hst E1) as G0.
      destruct r1 as [q1|e]; cbn in HI; [|discriminate]. injection HI as <- <-. destruct G0 as (x & z' & G1 & G2 & G3 & G4 & G5).
      exists (Z.to_nat (m + 2)), (MkVW 1 m m start z' x (np_eval p x)). split; [exact G4|]. cbn [vf vz vx].
      split; [|split; [reflexivity|split; [apply (I0 d); auto; exists o; auto|left; exact G5]]].
      unfold vok. cbn [vst vn vl vz0 vz vx vf]. destruct WF as (_ & _ & _ & W3 & W4). repeat (split; [solve [auto|lia]|]). apply W4.
    - destruct q as [|z lo up e|x f].
      + destruct V5 as [(b & e & E & _)|E]; discriminate E.
      + cbn [nt_iterate nt_resp] in HI. unfold sbind at 1 in HI. cbn [lift] in HI.
        destruct (validate_req _ _ _ _ _ _ _ HV) as ((b & u & Eb & Eu & _) & HD).
        assert (HC : vchange_ok v d w).
        { unfold vchange_ok. destruct (HA _ _ HAd ltac:(discriminate)) as [->|E]; [exact Logic.I|]. destruct v; [exact Logic.I|]. rewrite E. discriminate. }
        pose proof (hs_run _ _ _ _ _ _ _ (handle_view p v eps k ideal nadir WF d L w b u V2 HC HD Eb Eu) V1 HI) as (L' & w' & G1 & G2 & G3).
        exists L', w'. split; [exact G2|]. split; [exact G3|].
        assert (V2' := V2). assert (G3' := G3). destruct V2' as (Z0 & _ & _ & Z1 & Z2 & Z3). destruct G3' as (_ & _ & _ & Z1' & Z2' & Z3').
        assert (GI : I (q' :: NReq z lo up e :: qs) (g h (NReq z lo up e) d q') w').
        { destruct V5 as [(b' & e' & E & _)|E]; [|discriminate]. injection E as -> -> -> ->. eapply IS; eauto. }
        inversion G1; subst; cbn [vf vx vz]; auto.
      + cbn [nt_iterate] in HI. unfold sret in HI. injection HI as <- <-. exists L, w. auto 10.
  Qed.
  Lemma run_seen s q qs h : nt_run p v eps ideal nadir g g0 A s (q :: qs) h -> seen s q qs h.
  Proof.
    intros H. remember (q :: qs) as l eqn:El. revert q qs El. induction H as [|s q qs h d s' q' HP IH HV HAd HI]; intros q0 qs0 El.
    - injection El as <- <-. left. auto.
    - injection El as <- <-. eapply seen_step; eauto.
  Qed.
End Path.

(** ** Counters in any history of NAUTILUS *)
Section Counters.
  Context {N : NumOps} (p : nt_problem N) (eps : N) (ideal nadir : list N).
  Definition ctr (st : nat) (n l : Z) (s : nt_state N) : Prop := ns_step s = st /\ ns_n s = n /\ ns_left s = l.
  Lemma nput_ctr {A} get put i (x : A) st n l : (forall s y, ctr st n l s -> ctr st n l (put s y)) -> hs (ctr st n l) (nput get put i x) (fun _ => ctr st n l) (fun _ => ctr st n l).
  Proof.
    intros H. unfold nput. apply hs_get_bind. intros s0 H0. apply (hs_pre _ (ctr st n l)); [intros ? ->; exact H0|].
    apply hs_lift_bind; [auto|]. intros a _. apply hs_mod. intros s Hs. apply H, Hs.
  Qed.
  Ltac ct := repeat first
    [ progress intros
    | let s := fresh "s" in let H := fresh "H" in apply hs_get_bind; intros s H; eapply hs_pre; [intros ? ->; exact H|]
    | apply hs_lift_bind; [solve [auto]|]
    | apply nput_ctr; exact (fun s y H => H)
    | eapply hs_bind; [apply nput_ctr; exact (fun s y H => H)|] 
    | apply hs_mod; exact (fun s H => H)
    | apply hs_ret; solve [auto] ].
  Lemma solve_ctr v d st n l : hs (ctr st n l) (nt_solve p v eps ideal nadir d) (fun _ => ctr st n l) (fun _ => ctr st n l).
  Proof. unfold nt_solve. ct. Qed.
  Lemma move_ctr st n l : hs (ctr st n l) nt_move (fun _ => ctr st n l) (fun _ => ctr st n l).
  Proof. unfold nt_move. ct. Qed.
  Lemma report_ctr v st n l : hs (ctr st n l) (nt_report p v ideal nadir) (fun _ => ctr st n l) (fun _ => ctr st n l).
  Proof. unfold nt_report. ct. Qed.
  Lemma smr_ctr v d st n l : hs (ctr st n l) (nt_solve p v eps ideal nadir d ;;; nt_move ;;; nt_report p v ideal nadir) (fun _ => ctr st n l) (fun _ => ctr st n l).
  Proof. eapply hs_bind; [apply solve_ctr|]. intros []. eapply hs_bind; [apply move_ctr|]. intros []. apply report_ctr. Qed.

  (** step_number + n_iterations_left = n_iterations + 1 *)
  Definition bal (s : nt_state N) : Prop := (Z.of_nat (ns_step s) + ns_left s = ns_n s + 1)%Z.
  Lemma ctr_bal st n l s : (Z.of_nat st + l = n + 1)%Z -> ctr st n l s -> bal s.
  Proof. unfold ctr, bal. intros H (-> & -> & ->). exact H. Qed.
  Lemma bal_ctr s : bal s -> exists st n l, ctr st n l s /\ (Z.of_nat st + l = n + 1)%Z.
  Proof. intros H. exists (ns_step s), (ns_n s), (ns_left s). unfold ctr. auto. Qed.

  Lemma initial_ctr v d : hs (fun s => ns_step s = 1 /\ bal s) (nt_handle_initial p v eps ideal nadir d) (fun _ s => ns_step s = 1 /\ bal s) (fun _ s => ns_step s = 1 /\ bal s).
  Proof.
    unfold nt_handle_initial. apply hs_lift_bind; [auto|]. intros o _. apply hs_lift_bind; [auto|]. intros n _.
    apply hs_post with (Q := fun _ => ctr 1 n n) (E := fun _ => ctr 1 n n).
    { intros a s Hs. split; [apply Hs|]. eapply ctr_bal; [|exact Hs]. lia. }
    { intros a s Hs. split; [apply Hs|]. eapply ctr_bal; [|exact Hs]. lia. }
    apply (hs_mod_bind _ _ _ (ctr 1 n n)); [intros s [Hs _]; unfold ctr; cbn; auto|].
    ct. eapply hs_bind; [apply solve_ctr|]. intros []. eapply hs_bind; [apply move_ctr|]. intros []. apply report_ctr.
  Qed.
  Lemma forward_ctr v d st n l : hs (ctr st n l) (nt_forward p v eps ideal nadir d) (fun _ => ctr (S st) n (l - 1)) (fun _ => ctr (S st) n (l - 1)).
  Proof.
    unfold nt_forward. apply (hs_mod_bind _ _ _ (ctr (S st) n (l - 1))); [unfold ctr, u_next; cbn; intuition congruence|].
    apply hs_lift_bind; [auto|]. intros u _.
    eapply (hs_bind _ _ _ (fun _ => ctr (S st) n (l - 1))); [destruct (truthy u); [ct|apply solve_ctr]|]. intros [].
    eapply hs_bind; [apply move_ctr|]. intros []. apply report_ctr.
  Qed.
  Lemma half_ctr v st n l : hs (ctr st n l) (nt_half p v ideal nadir) (fun _ => ctr st n l) (fun _ => ctr st n l).
  Proof. unfold nt_half. ct. Qed.
  Definition is_stop (q : nt_request N) : Prop := exists x f, q = NStop x f.
  Lemma handle_ctr d : (forall o, nd_n d = Some o -> exists m, as_int o = Some m) ->
    hs bal (nt_handle p NV1 eps ideal nadir d) (fun r s => (exists q, r = Some q /\ is_stop q) \/ bal s) (fun e s => bal s \/ e = IndexErr).
  Proof.
    intros HD. unfold nt_handle. eapply (hs_bind _ _ _ (fun _ => bal)).
    { unfold nt_change. destruct (nd_n d) as [o|]; [|apply hs_ret; auto]. apply hs_lift_bind; [auto|]. intros m _. apply hs_mod.
      intros s Hs. unfold bal, nt_set_left, nt_extend in *. destruct (ns_n s <? m)%Z; cbn [ns_step ns_left ns_n]; lia. }
    intros []. apply hs_get_bind. intros s0 H0. destruct (bal_ctr _ H0) as (st & n & l & HC & HB).
    apply (hs_pre _ (ctr st n l)); [intros ? ->; exact HC|]. destruct (ns_left s0 <=? 1)%Z.
    - apply (hs_mod_bind _ _ _ (fun _ => True)); [auto|]. unfold at_.
      destruct (nth_error (ns_xs s0) (ns_step s0)); [|apply hs_lift_bind; [intros e s E; injection E as <-; auto|discriminate]].
      apply hs_lift_bind; [discriminate|]. intros x _.
      destruct (nth_error (ns_fs s0) (ns_step s0)); [|apply hs_lift_bind; [intros e s E; injection E as <-; auto|discriminate]].
      apply hs_lift_bind; [discriminate|]. intros f _. apply hs_ret. intros s _. left. eexists. split; [reflexivity|]. unfold is_stop. eauto.
    - apply hs_lift_bind; [intros e s _ Hs; left; eapply ctr_bal; eauto|]. intros b _. destruct (negb (truthy b)).
      + eapply hs_bind; [eapply hs_post; [| |apply forward_ctr]; [intros a s Hs; exact Hs|intros e s Hs; left; eapply ctr_bal; [|exact Hs]; lia]|].
        intros q. apply hs_ret. intros s Hs. right. eapply ctr_bal; [|exact Hs]; lia.
      + apply hs_lift_bind; [intros e s _ Hs; left; eapply ctr_bal; eauto|]. intros h _. destruct (truthy h).
        * eapply hs_bind; [eapply hs_post; [| |apply half_ctr]; [intros a s Hs; exact Hs|intros e s Hs; left; eapply ctr_bal; eauto]|].
          intros q. apply hs_ret. intros s Hs. right. eapply ctr_bal; eauto.
        * apply hs_lift_bind; [intros e s _ Hs; left; eapply ctr_bal; eauto|]. intros u _. destruct (truthy u); [apply hs_ret; intros s Hs; right; eapply ctr_bal; eauto|].
          eapply hs_bind; [eapply hs_post; [| |apply solve_ctr]; [intros a s Hs; exact Hs|intros e s Hs; left; eapply ctr_bal; eauto]|]. intros [].
          eapply hs_bind; [eapply hs_post; [| |apply move_ctr]; [intros a s Hs; exact Hs|intros e s Hs; left; eapply ctr_bal; eauto]|]. intros [].
          eapply hs_bind; [eapply hs_post; [| |apply report_ctr]; [intros a s Hs; exact Hs|intros e s Hs; left; eapply ctr_bal; eauto]|].
          intros q. apply hs_ret. intros s Hs. right. eapply ctr_bal; eauto.
  Qed.
  Lemma reach_bal k s qs : nt_wf k p NV1 ideal nadir -> nt_no_index_errors p -> nt_reach p NV1 eps ideal nadir nt_no_restart s qs -> (forall q, In q qs -> ~ is_stop q) ->
    bal s /\ (qs = [NInit] -> ns_step s = 1).
  Proof.
    intros WF HN H. induction H as [|s qs q resp s' out HR IH Hq HV HA HI]; intros HS; [split; reflexivity|].
    destruct IH as [IB IH].
    { intros q0 Hq0. apply HS. destruct out as [[q1|]|]; auto. right. exact Hq0. }
    destruct q as [|z lo up e|x f]; cbn [nt_iterate] in HI.
    - specialize (HA eq_refl). specialize (IH HA). destruct resp as [d|]; cbn [nt_resp] in HI; [|unfold sbind, lift in HI; injection HI as <- <-; auto].
      unfold sbind at 1 in HI. cbn [lift] in HI. destruct (nt_handle_initial p NV1 eps ideal nadir d s) as [s1 r1] eqn:E1. unfold sbind in HI. rewrite E1 in HI.
      pose proof (hs_run _ _ _ _ _ _ _ (initial_ctr NV1 d) (conj IH IB) E1) as G. destruct r1; cbn in HI; injection HI as <- <-; destruct G; auto.
    - destruct resp as [d|]; cbn [nt_resp] in HI; [|unfold sbind, lift in HI; injection HI as <- <-; auto].
      specialize (HV d eq_refl). destruct (validate_req _ _ _ _ _ _ _ HV) as (_ & HD).
      assert (HX : out <> Raise IndexErr).
      { pose proof (reach_ok p NV1 eps k ideal nadir WF HN s qs HR) as R0.
        refine (proj2 (step_ok p NV1 eps k ideal nadir WF HN s qs (NReq z lo up e) (Some d) s' out R0 Hq _ HA HI)). intros d' E. injection E as <-. exact HV. }
      unfold sbind at 1 in HI. cbn [lift] in HI.
      assert (HD' : forall o, nd_n d = Some o -> exists m, as_int o = Some m) by (intros o Eo; destruct (HD o Eo) as (m & Em & _); eauto).
      pose proof (hs_run _ _ _ _ _ _ _ (handle_ctr d HD') IB HI) as G.
      assert (HL : qs = [NInit] -> False) by (intros ->; destruct Hq as [Hq|[]]; discriminate).
      destruct out as [[q1|]|e0].
      + split; [|intros E; injection E as -> ->; destruct Hq]. destruct G as [(q0 & E & G)|G]; [|exact G]. injection E as <-. exfalso. exact (HS q1 (or_introl eq_refl) G).
      + split; [|intros E; destruct (HL E)]. destruct G as [(q0 & E & _)|G]; [discriminate|exact G].
      + split; [|intros E; destruct (HL E)]. destruct G as [G| ->]; [exact G|]. exfalso. apply HX. reflexivity.
    - exfalso. exact (HS _ (match out as o return In (NStop x f) (match o with Ok (Some q') => q' :: qs | _ => qs end) with Ok (Some q') => or_intror Hq | _ => Hq end) (ex_intro _ x (ex_intro _ f eq_refl))).
  Qed.
End Counters.
