(** * Properties of requests and responses as objects (C95).
    [ob_run validate step es w]: the calls [es] (create a dictionary, edit one in place,
    answer a request with one, iterate a request) made from [w], failing calls
    included; see MObjects.v.  [nb_calls], [rp_calls], [nt_calls], [en_calls],
    [nv_calls], [pn_calls]: the same from the [start] of the six methods. *)
From Coq Require Import ZArith List Bool Lia Floats.
From Verif Require Import Num NumF64 F64Facts Py Np Spec MNimbus MRpm MNautilus MENautilus MNavigator MParetoNav PNimbus7 PNimbus8 MObjects SObjects PObjects.
Import ListNotations.

(** ** C95: an answer that is refused changes nothing — an answer given before stays in
    force *)
Theorem C95_rejected_answer :
  forall (S Q D K : Type) (validate : Q -> D -> res unit) (step : K -> Q -> option D -> SE S (option Q)) i l w w' x,
  ob_exec validate step (OAnswer i l) w = (w', Raise x) -> w' = w.
Proof. intros S Q D K validate step. exact (rejected validate step). Qed.
Print Assumptions C95_rejected_answer.

(** ** C95: the answer iterate acts on is the last one accepted: after an accepted answer
    and any calls that neither answer the request again nor edit that dictionary,
    iterating the request performs the step with the content the dictionary had *)
Theorem C95_last_accepted_answer_is_used :
  forall (S Q D K : Type) (validate : Q -> D -> res unit) (step : K -> Q -> option D -> SE S (option Q))
         w i l q old d es k,
  nth_error (ow_reqs w) i = Some (q, old) -> nth_error (ow_dicts w) l = Some d -> validate q d = Ok tt ->
  Forall (leaves_alone i l) es ->
  let w1 := ob_run validate step es (fst (ob_exec validate step (OAnswer i l) w)) in
  let w2 := fst (ob_exec validate step (OIterate k i) w1) in
  ow_state w2 = fst (step k q (Some d) (ow_state w1)) /\
  snd (ob_exec validate step (OIterate k i) w1) = (match snd (step k q (Some d) (ow_state w1)) with Ok _ => Ok tt | Raise x => Raise x end) /\
  returned w2 = (match snd (step k q (Some d) (ow_state w1)) with Ok (Some q') => q' :: returned w1 | _ => returned w1 end).
Proof.
  intros S Q D K validate step w i l q old d es k H1 H2 H3 F w1 w2.
  apply (iterate_uses validate step k i l q d w1). apply (keeps_run validate step); auto.
  exact (accepted_keeps validate step i l q old d w H1 H2 H3).
Qed.
Print Assumptions C95_last_accepted_answer_is_used.

(** An unanswered request stays unanswered until it is answered. *)
Theorem C95_unanswered :
  forall (S Q D K : Type) (validate : Q -> D -> res unit) (step : K -> Q -> option D -> SE S (option Q)) w i q es,
  nth_error (ow_reqs w) i = Some (q, None) ->
  Forall (fun e => match e with OAnswer j _ => j <> i | _ => True end) es ->
  forall k, let w1 := ob_run validate step es w in
  ow_state (fst (ob_exec validate step (OIterate k i) w1)) = fst (step k q None (ow_state w1)).
Proof.
  intros S Q D K validate step w i q es H F k w1.
  pose proof (unanswered_run validate step i q es w H F) as E. fold w1 in E. clearbody w1. cbn. rewrite E. cbn.
  destruct (step k q None (ow_state w1)) as [s' [[q1|]|x]]; reflexivity.
Qed.
Print Assumptions C95_unanswered.

(** ** C95: as long as a dictionary that answers a request is edited only into one the
    request accepts, every state reached by such calls is one of the histories the other
    properties speak of *)
Theorem C95_histories_nimbus :
  forall (N : NumOps) av (p : nb_problem N) ideal nadir s0 es,
  all_keep_answers (nb_validate p ideal nadir) (ob_some (fun _ : unit => nb_iterate av p ideal nadir)) es (ob_start s0 (nb_start s0)) ->
  nb_reach av p ideal nadir s0 (ow_state (nb_calls av p ideal nadir s0 es)) (returned (nb_calls av p ideal nadir s0 es)).
Proof.
  intros N av p ideal nadir s0 es. apply (histories _ _ (nb_reach av p ideal nadir s0)); [|constructor].
  intros s qs k q resp s' out HR Hin HV H. apply some_inv in H as (o & H & E).
  replace (match out with Ok (Some q') => q' :: qs | _ => qs end) with (match o with Ok q' => q' :: qs | Raise _ => qs end) by (rewrite E; destruct o; reflexivity).
  eapply nb_reach_step; eauto.
Qed.
Print Assumptions C95_histories_nimbus.

Theorem C95_histories_rpm :
  forall (N : NumOps) (p : rp_problem N) rho eps ideal nadir es,
  all_keep_answers (rp_validate ideal nadir) (ob_some (fun _ : unit => rp_iterate p rho eps ideal nadir)) es (ob_start rp_init RInit) ->
  rp_reach p rho eps ideal nadir (ow_state (rp_calls p rho eps ideal nadir es)) (returned (rp_calls p rho eps ideal nadir es)).
Proof.
  intros N p rho eps ideal nadir es. apply (histories _ _ (rp_reach p rho eps ideal nadir)); [|constructor].
  intros s qs k q resp s' out HR Hin HV H. apply some_inv in H as (o & H & E).
  replace (match out with Ok (Some q') => q' :: qs | _ => qs end) with (match o with Ok q' => q' :: qs | Raise _ => qs end) by (rewrite E; destruct o; reflexivity).
  eapply rp_reach_step; eauto.
Qed.
Print Assumptions C95_histories_rpm.

Theorem C95_histories_nautilus :
  forall (N : NumOps) (p : nt_problem N) v eps ideal nadir es,
  all_keep_answers (nt_validate v nadir) (fun _ : unit => nt_iterate p v eps ideal nadir) es (ob_start nt_init NInit) ->
  nt_reach p v eps ideal nadir (fun _ _ _ _ => True) (ow_state (nt_calls p v eps ideal nadir es)) (returned (nt_calls p v eps ideal nadir es)).
Proof.
  intros N p v eps ideal nadir es. apply (histories _ _ (nt_reach p v eps ideal nadir (fun _ _ _ _ => True))); [|constructor].
  intros s qs k q resp s' out HR Hin HV H. eapply nt_reach_step; eauto.
Qed.
Print Assumptions C95_histories_nautilus.

Theorem C95_histories_enautilus :
  forall (N : NumOps) front ideal nadir vars es,
  all_keep_answers en_validate (ob_some (fun km : @km_oracle N => en_iterate km)) es
    (ob_start (en_init front ideal nadir vars) (en_start (en_init front ideal nadir vars))) ->
  en_reach front ideal nadir vars (ow_state (en_calls front ideal nadir vars es)) (returned (en_calls front ideal nadir vars es)).
Proof.
  intros N front ideal nadir vars es. apply (histories _ _ (en_reach front ideal nadir vars)); [|constructor].
  intros s qs k q resp s' out HR Hin HV H. apply some_inv in H as (o & H & E).
  replace (match out with Ok (Some q') => q' :: qs | _ => qs end) with (match o with Ok q' => q' :: qs | Raise _ => qs end) by (rewrite E; destruct o; reflexivity).
  eapply en_reach_step; eauto.
Qed.
Print Assumptions C95_histories_enautilus.

Theorem C95_histories_navigator :
  forall (N : NumOps) asf (front : list (list N)) ideal nadir vars es,
  all_keep_answers nv_setter (ob_some (fun _ : unit => nv_iterate asf)) es
    (ob_start (nv_init front ideal nadir vars) (nv_start (nv_init front ideal nadir vars))) ->
  nv_reach asf front ideal nadir vars (ow_state (nv_calls asf front ideal nadir vars es)) (returned (nv_calls asf front ideal nadir vars es)).
Proof.
  intros N asf front ideal nadir vars es. apply (histories _ _ (nv_reach asf front ideal nadir vars)); [|constructor].
  intros s qs k q resp s' out HR Hin HV H. apply some_inv in H as (o & H & E).
  replace (match out with Ok (Some q') => q' :: qs | _ => qs end) with (match o with Ok q' => q' :: qs | Raise _ => qs end) by (rewrite E; destruct o; reflexivity).
  destruct resp as [d|]; [|cbn in H; injection H as <- <-; exact HR].
  destruct q as [c|objs decs idx]; [|specialize (HV d eq_refl); discriminate].
  eapply nv_reach_step; eauto.
Qed.
Print Assumptions C95_histories_navigator.

Theorem C95_histories_pareto :
  forall (N : NumOps) (e : pn_env N) ideal0 nadir0 given s0 es,
  pn_ctor e ideal0 nadir0 given = Ok s0 ->
  all_keep_answers pn_validate (ob_some (fun _ : unit => pn_iterate e)) es (ob_start s0 (pn_start s0)) ->
  pn_reach e ideal0 nadir0 given (ow_state (pn_calls e s0 es)) (returned (pn_calls e s0 es)).
Proof.
  intros N e ideal0 nadir0 given s0 es H0 HK. exists s0. split; auto. revert HK.
  apply (histories _ _ (fun s qs => pn_hist e (s0, []) (s, qs))); [|eapply pn_hist_step; constructor].
  intros s qs k q resp s' out HR Hin HV H. apply some_inv in H as (o & H & E).
  replace (match out with Ok (Some q') => q' :: qs | _ => qs end) with (match o with Ok q' => q' :: qs | Raise _ => qs end) by (rewrite E; destruct o; reflexivity).
  eapply pn_hist_step; [exact HR|]. eapply pn_step_iterate; eauto.
Qed.
Print Assumptions C95_histories_pareto.

(** ** C95 refuted: a dictionary is checked when it is assigned, not when it is used.  A
    caller who edits it in between makes iterate act on an answer the request refuses:
    here "continue from solution -1", while the request accepts 0 .. number of solutions *)
Definition o_w0 : ob_world (nb_state F64) (nb_request F64) (nb_dict F64) :=
  match nb_init bav bP bI bN None [] with Ok s0 => ob_start s0 (nb_start s0) | Raise _ => ob_start (MkBS [] [] [] [] PEnd) (QClass []) end.
Definition o_step := ob_some (fun _ : unit => nb_iterate bav bP bI bN).
Definition o_es : list (ob_event (nb_dict F64) unit) :=
  [OMake b_classify; OAnswer 0 0; OIterate tt 0;
   OMake (dsave [0; 1]%Z); OAnswer 1 1; OEdit 1 (dsave []); OIterate tt 1;
   OMake (dinter [] 0); OAnswer 2 2; OIterate tt 2;
   OMake (dpref 1 false); OAnswer 3 3].
Definition o_bad : ob_event (nb_dict F64) unit := OEdit 3 (dpref (-1) false).
Definition o_w (es : list (ob_event (nb_dict F64) unit)) := ob_run (nb_validate bP bI bN) o_step es o_w0.
Definition o_refused (w : ob_world (nb_state F64) (nb_request F64) (nb_dict F64)) (i : nat) : bool :=
  match nth_error (ow_reqs w) i with
  | Some (q, Some l) => match nth_error (ow_dicts w) l with Some d => negb (is_ok (nb_validate bP bI bN q d)) | None => false end
  | _ => false
  end.
Definition o_it (w : ob_world (nb_state F64) (nb_request F64) (nb_dict F64)) := ob_exec (nb_validate bP bI bN) o_step (OIterate tt 3) w.
Lemma o_check :
  keepsb (nb_validate bP bI bN) o_step o_es o_w0 = true /\
  o_refused (o_w o_es) 3 = false /\ o_refused (o_w (o_es ++ [o_bad])) 3 = true /\
  is_ok (snd (o_it (o_w (o_es ++ [o_bad])))) = true /\
  length (ow_reqs (o_w (o_es ++ [o_bad]))) = 4 /\ length (ow_reqs (fst (o_it (o_w (o_es ++ [o_bad]))))) = 5.
Proof. vm_compute. repeat split. Qed.
Lemma o_init : exists s0, nb_init bav bP bI bN None [] = Ok s0 /\ o_w0 = ob_start s0 (nb_start s0).
Proof.
  unfold o_w0. destruct (nb_init bav bP bI bN None []) as [s0|] eqn:E; [eauto|].
  exfalso. assert (H : is_ok (match nb_init bav bP bI bN None [] with Ok _ => Ok tt | Raise e => Raise e end) = true) by (vm_compute; reflexivity).
  rewrite E in H. discriminate.
Qed.
Lemma o_slot : match nth_error (ow_reqs (o_w o_es)) 3 with Some (_, Some l) => Nat.eqb l 3 | _ => false end = true /\ Nat.ltb 3 (length (ow_dicts (o_w o_es))) = true.
Proof. vm_compute. split; reflexivity. Qed.
Lemma o_core (v : nb_request F64 -> nb_dict F64 -> res unit) (st : unit -> nb_request F64 -> option (nb_dict F64) -> SE (nb_state F64) (option (nb_request F64))) w (d : nb_dict F64) :
  let w' := fst (ob_exec v st (OEdit 3 d) w) in
  match nth_error (ow_reqs w) 3 with Some (_, Some l) => Nat.eqb l 3 | _ => false end = true -> Nat.ltb 3 (length (ow_dicts w)) = true ->
  match nth_error (ow_reqs w') 3 with
  | Some (q, Some l) => match nth_error (ow_dicts w') l with Some d => negb (is_ok (v q d)) | None => false end
  | _ => false
  end = true -> exists q, nth_error (ow_reqs w) 3 = Some (q, Some 3) /\ v q d <> Ok tt.
Proof.
  intros w' C1 C2 K3. cbn [w' ob_exec fst ow_reqs ow_dicts] in K3.
  destruct (nth_error (ow_reqs w) 3) as [[q [l|]]|] eqn:E3; [|discriminate|discriminate].
  apply Nat.eqb_eq in C1. subst l. exists q. split; [reflexivity|]. rewrite set_same in K3 by (apply Nat.ltb_lt; exact C2).
  intros V. rewrite V in K3. discriminate.
Qed.
Lemma o_edit : fst (ob_exec (nb_validate bP bI bN) o_step (OEdit 3 (dpref (-1) false)) (o_w o_es)) = o_w (o_es ++ [o_bad]).
Proof. unfold o_w at 2. rewrite (run_app (nb_validate bP bI bN) o_step o_es [o_bad]). reflexivity. Qed.
Theorem C95_checked_answers_refuted :
  exists s0 es l d,
    nb_init bav bP bI bN None [] = Ok s0 /\
    let w := nb_calls bav bP bI bN s0 es in
    let w' := fst (ob_exec (nb_validate bP bI bN) o_step (OEdit l d) w) in
    all_keep_answers (nb_validate bP bI bN) o_step es (ob_start s0 (nb_start s0)) /\
    exists i q, nth_error (ow_reqs w) i = Some (q, Some l) /\ nb_validate bP bI bN q d <> Ok tt /\
    snd (ob_exec (nb_validate bP bI bN) o_step (OIterate tt i) w') = Ok tt /\
    length (returned (fst (ob_exec (nb_validate bP bI bN) o_step (OIterate tt i) w'))) = Datatypes.S (length (returned w')).
Proof.
  destruct o_init as (s0 & E0 & Ew). exists s0, o_es, 3, (dpref (-1) false). split; [exact E0|].
  assert (Hw : nb_calls bav bP bI bN s0 o_es = o_w o_es) by (unfold nb_calls, o_w; rewrite Ew; reflexivity).
  destruct o_check as (K1 & K2 & K3 & K4 & K5 & K6). destruct o_slot as [C1 C2]. rewrite Ew in K1.
  pose proof o_edit as He. rewrite <- He in K3, K4, K5, K6. rewrite <- Hw in *. clear He Hw Ew K2.
  generalize dependent (nb_calls bav bP bI bN s0 o_es). intros w K3 K4 K5 K6 C1 C2. cbv zeta.
  split; [apply keepsb_ok; exact K1|].
  destruct (o_core _ _ w _ C1 C2 K3) as (q & E3 & V). clear K3 C1 C2.
  remember (fst (ob_exec (nb_validate bP bI bN) o_step (OEdit 3 (dpref (-1) false)) w)) as w' eqn:Hx. clear Hx.
  exists 3, q. split; [exact E3|]. split; [exact V|]. unfold o_it in K4, K6.
  split; [destruct (snd (ob_exec (nb_validate bP bI bN) o_step (OIterate tt 3) w')) as [[]|]; [reflexivity|discriminate]|].
  unfold returned. rewrite !rev_length, !map_length, K5, K6. reflexivity.
Qed.
Print Assumptions C95_checked_answers_refuted.

(** The hypotheses of the histories are met: a NIMBUS session with answers, an answered
    dictionary edited into another acceptable one, and a request iterated twice. *)
Example C95_hypotheses_met :
  exists s0, nb_init bav bP bI bN None [] = Ok s0 /\
    let es := o_es ++ [OIterate tt 3; OIterate tt 0] in
    all_keep_answers (nb_validate bP bI bN) o_step es (ob_start s0 (nb_start s0)) /\
    length (returned (nb_calls bav bP bI bN s0 es)) = 6.
Proof.
  destruct o_init as (s0 & E0 & Ew). exists s0. split; [exact E0|]. intros es.
  assert (K : keepsb (nb_validate bP bI bN) o_step es o_w0 = true /\ length (ow_reqs (o_w es)) = 6) by (vm_compute; split; reflexivity).
  destruct K as [K1 K2]. rewrite Ew in K1. split; [apply keepsb_ok; exact K1|].
  unfold returned. rewrite rev_length, map_length. unfold nb_calls. rewrite <- Ew. exact K2.
Qed.
