(** * E-NAUTILUS with doubles: shown points and the box between ideal and nadir (C62). *)
From Coq Require Import ZArith List Bool Lia Reals Lra Floats.
From Flocq Require Import Core.
From Verif Require Import Num NumF64 Py Np Spec NpFacts MENautilus PENautilus PENautilus2 PENautilus3 PENautilus4 PENautilus5 F64Sums F64Step SFloat SENautilus PENautilus6 PENautilus7 PENautilus8 PropsDoubles4.
Import ListNotations.
Local Open Scope R_scope.

(** ** C62 with doubles: numbers up to 2^e, T requests in the history so far: no shown
    component leaves the box by more than T * 2^(e-49). *)
Theorem C62_points_near_box_doubles :
  forall (F : list (list F64)) (id nd ideal : list F64) vars s qs e,
  (-1000 <= e <= 1018)%Z -> fin_below e id -> fin_below e nd -> Forall (fin_below e) F ->
  Forall (fun r => vle id r /\ vle r nd) F -> vle id nd ->
  en_session F ideal nd vars s qs ->
  (forall mi c, In (EReq mi c) qs -> (ec_left c <= 2 ^ 53)%Z) -> (Z.of_nat (length qs) <= 2 ^ 49)%Z ->
  forall y, (exists mi c, In (EReq mi c) qs /\ In y (ec_points c)) \/ (exists x, In (EStop y x) qs) ->
  length y = length nd /\
  forall j lo hi x, nth_error id j = Some lo -> nth_error nd j = Some hi -> nth_error y j = Some x ->
    ffin x /\ fval lo - IZR (Z.of_nat (length qs)) * bpow radix2 (e - 49) <= fval x <= fval hi + IZR (Z.of_nat (length qs)) * bpow radix2 (e - 49).
Proof.
  intros F id nd ideal vars s qs e He B1 B2 B3 HF Hidnd Hs Hc Hl.
  assert (Hlen : length id = length nd) by (apply vle_len; auto).
  assert (HFl : Forall (fun r => length r = length nd) F) by (eapply Forall_impl; [|exact HF]; intros r [_ H]; apply vle_len; auto).
  assert (Hv : forall a b j x y, fin_below e a -> fin_below e b -> vle a b -> nth_error a j = Some x -> nth_error b j = Some y -> fval x <= fval y).
  { intros a b j x y Fa Fb H Hx Hy. apply val_of_leb; [apply (below_nth e _ _ _ Fa Hx)|apply (below_nth e _ _ _ Fb Hy)|].
    revert j Hx Hy. clear -H. induction H as [|u v a b Huv H IH]; intros [|j] Hx Hy; try discriminate; cbn in Hx, Hy; [congruence|eauto]. }
  assert (G : Forall (near_req id nd e (IZR (Z.of_nat (length qs)))) qs).
  { apply (session_near F id nd ideal vars e He Hlen HFl) with (s := s); auto; [|intros j a b Ha Hb; eapply (Hv id nd); eauto].
    intros r j a b x Hr Ha Hb Hx. rewrite Forall_forall in HF, B3. destruct (HF r Hr). split; [apply (Hv id r j); auto|apply (Hv r nd j); auto]. }
  rewrite Forall_forall in G. intros y [(mi & c & Hq & Hy)|(x & Hq)].
  - pose proof (G _ Hq) as [_ Gq]. rewrite Forall_forall in Gq. exact (Gq y Hy).
  - exact (G _ Hq).
Qed.
Print Assumptions C62_points_near_box_doubles.

(** ** C62 is false with doubles: with five iterations 0.8 * 3 + 0.2 * 3 is above 3, and the
    first request shows a point that is worse than the nadir. *)
Definition u_front : list (list F64) := [[0; 3]; [3; 0]]%float.
Definition u_ideal : list F64 := [0; 0]%float.
Definition u_nadir : list F64 := [3; 3]%float.
Definition u_a0 : en_dict F64 := MkED (Some (VInt 5)) (Some (VInt 2)) None None None None None None None None None.
Definition u_s0 := en_init u_front u_ideal u_nadir None.
Definition u_r := en_iterate w_km (en_start u_s0) (Some u_a0) u_s0.
Definition u_check (r : en_state F64 * res (en_request F64)) : bool :=
  match r with
  | (_, Ok (EReq _ c)) => (ec_left c =? 5)%Z && existsb (fun y => match nth_error y 1 with Some x => PrimFloat.ltb 3 x | None => false end) (ec_points c)
  | _ => false
  end.
Lemma u_ok : u_check u_r = true.
Proof. vm_compute. reflexivity. Qed.
Lemma u_extract r : u_check r = true -> exists s mi c y x, r = (s, Ok (EReq mi c)) /\ ec_left c = 5%Z /\ In y (ec_points c) /\ nth_error y 1 = Some x /\ PrimFloat.ltb 3 x = true.
Proof.
  unfold u_check. destruct r as [s [[|mi c|]|]]; try discriminate. intros H. apply andb_prop in H as [H0 H]. apply existsb_exists in H. destruct H as (y & Hy & H).
  destruct (nth_error y 1) as [x|] eqn:E; [|discriminate]. exists s, mi, c, y, x. split; [reflexivity|]. split; [apply Z.eqb_eq; exact H0|]. auto.
Qed.

Theorem C62_above_nadir_refuted :
  clusters w_km /\ mutually_nondominated u_front /\ Forall (fun r => vle u_ideal r /\ vle r u_nadir) u_front /\
  exists s qs mi c y x,
    en_session u_front u_ideal u_nadir None s qs /\ In (EReq mi c) qs /\ In y (ec_points c) /\
    nth_error y 1 = Some x /\ nth_error u_nadir 1 = Some 3%float /\ PrimFloat.ltb 3 x = true.
Proof.
  split; [exact w_clusters|]. split.
  { intros a b Ha Hb [H1 H2]. apply H2. clear H2.
    cbn in Ha, Hb. destruct Ha as [<-|[<-|[]]], Hb as [<-|[<-|[]]]; try exact H1; exfalso;
      inversion H1 as [|? ? ? ? A B]; subst; inversion B as [|? ? ? ? C D]; subst; vm_compute in A, C; discriminate. }
  split; [repeat constructor|].
  destruct (u_extract u_r u_ok) as (s & mi & c & y & x & E & _ & Hy & Hx & Hlt).
  exists s, [EReq mi c; en_start u_s0], mi, c, y, x. split; [|split; [left; reflexivity|]]; [|auto].
  apply (es_step u_front u_ideal u_nadir None u_s0 [en_start u_s0] (en_start u_s0) (Some u_a0) w_km s (Ok (EReq mi c))).
  - constructor.
  - left; reflexivity.
  - intros d Hd. injection Hd as <-. split; [reflexivity|]. split; discriminate.
  - exact E.
Qed.
Print Assumptions C62_above_nadir_refuted.

(** The same session meets the hypotheses of the bound. *)
Example C62_doubles_hypotheses_met :
  (-1000 <= 2 <= 1018)%Z /\ fin_below 2 u_ideal /\ fin_below 2 u_nadir /\ Forall (fin_below 2) u_front /\
  Forall (fun r => vle u_ideal r /\ vle r u_nadir) u_front /\ vle u_ideal u_nadir /\
  exists s qs, en_session u_front u_ideal u_nadir None s qs /\ (exists mi c, In (EReq mi c) qs) /\
    (forall mi c, In (EReq mi c) qs -> (ec_left c <= 2 ^ 53)%Z) /\ (Z.of_nat (length qs) <= 2 ^ 49)%Z.
Proof.
  assert (V0 : ffin 0%float /\ Rabs (fval 0%float) <= bpow radix2 2).
  { destruct (f64_ofZ_exact 0) as [A B]; [lia|]. change (f64_ofZ 0) with 0%float in A, B. split; [exact A|]. rewrite B, Rabs_R0. apply bpow_ge_0. }
  assert (V3 : ffin 3%float /\ Rabs (fval 3%float) <= bpow radix2 2).
  { destruct (f64_ofZ_exact 3) as [A B]; [lia|]. change (f64_ofZ 3) with 3%float in A, B. split; [exact A|]. rewrite B. change (bpow radix2 2) with 4. apply Rabs_le. lra. }
  split; [lia|]. split; [repeat (constructor; [assumption|]); constructor|]. split; [repeat (constructor; [assumption|]); constructor|].
  split; [repeat (constructor; [repeat (constructor; [assumption|]); constructor|]); constructor|].
  split; [repeat constructor|]. split; [repeat constructor|].
  destruct (u_extract u_r u_ok) as (s & mi & c & y & x & E & El & _).
  exists s, [EReq mi c; en_start u_s0]. split.
  - apply (es_step u_front u_ideal u_nadir None u_s0 [en_start u_s0] (en_start u_s0) (Some u_a0) w_km s (Ok (EReq mi c))).
    + constructor.
    + left; reflexivity.
    + intros d Hd. injection Hd as <-. split; [reflexivity|]. split; discriminate.
    + exact E.
  - split; [exists mi, c; left; reflexivity|]. split; [|cbn; lia].
    intros mi' c' [H|[H|[]]]; [|discriminate]. injection H as <- <-. rewrite El. lia.
Qed.
