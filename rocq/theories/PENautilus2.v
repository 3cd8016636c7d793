(** * E-NAUTILUS: exact arithmetic, sessions, step back. *)
From Coq Require Import ZArith List Bool Lia Reals Lra.
From Verif Require Import Num NumXR Py Np Spec NpFacts XRFacts MENautilus PENautilus.
Import ListNotations.
Local Open Scope R_scope.

(** The intermediate point on the way from [p] to [z] with [n] iterations left. *)
Definition step_towards (n : Z) (p z : list R) : list R :=
  rcomb (IZR (n - 1) / IZR n) p (1 / IZR n) z.

Lemma step_towards_1 p z : length p = length z -> step_towards 1 p z = z.
Proof.
  intros H. unfold step_towards. simpl. replace (0 / 1) with 0 by field. replace (1 / 1) with 1 by field.
  apply rcomb_1_0; auto.
Qed.
Lemma step_towards_length n p z : length p = length z -> length (step_towards n p z) = length p.
Proof. apply rcomb_length. Qed.

Lemma xm_rows_ex (F : list (list R)) (zbars : list (list XR)) (P : nat -> Prop) :
  Forall (fun zb => exists i, P i /\ nth_error (xm F) i = Some zb) zbars ->
  exists zb, zbars = xm zb /\ Forall (fun z => exists i, P i /\ nth_error F i = Some z) zb.
Proof.
  induction 1 as [|v zbars [i [Hi Hv]] _ [zb [-> IH]]].
  - exists []. split; constructor.
  - rewrite xm_nth in Hv. destruct (nth_error F i) as [z|] eqn:E; inversion Hv; subst.
    exists (z :: zb). split; [reflexivity|]. constructor; eauto.
Qed.

Lemma en_intermediate_xr p zb n zs :
  Forall (fun z => length z = length p) zb ->
  en_intermediate (xv p : list XR) (xm zb) n = Ok zs ->
  n <> 0%Z /\ zs = xm (map (step_towards n p) zb).
Proof.
  intros HL H. unfold en_intermediate in H. destruct (Z.eqb_spec n 0) as [|Hn]; [discriminate|].
  split; auto. rewrite !coef_xr in H by auto.
  apply rseq_map_ok in H. revert zs H. induction zb as [|z zb IH]; intros zs H; simpl in H; inversion H as [|? y ? l' Hy Hl]; subst.
  - reflexivity.
  - inversion HL as [|? ? Hz HL']; subst. simpl.
    rewrite comb_xr in Hy by congruence. injection Hy as <-. f_equal. apply IH; auto.
Qed.
Lemma en_intermediate_xr_ok p zb n :
  Forall (fun z => length z = length p) zb -> n <> 0%Z ->
  en_intermediate (xv p : list XR) (xm zb) n = Ok (xm (map (step_towards n p) zb)).
Proof.
  intros HL Hn. unfold en_intermediate. destruct (Z.eqb_spec n 0) as [|_]; [contradiction|].
  rewrite !coef_xr by auto. apply rseq_map_ok.
  induction HL as [|z zb Hz HL IH]; simpl; constructor; auto.
  rewrite comb_xr by congruence. reflexivity.
Qed.

(** The percentage the code reports for [z] approached via point [y]. *)
Definition pct (y z nd : list R) : XR :=
  nmul (ndiv (Fin (rdist y nd) : XR) (Fin (rdist z nd))) (nofZ 100).

Lemma rsub_rows (pts : list (list R)) nd :
  Forall (fun z => length z = length nd) pts ->
  rseq (map (fun z : list XR => bcast2 nsub z (xv nd)) (xm pts)) = Ok (map (fun z => xv (rsub z nd)) pts).
Proof.
  intros H. apply rseq_map_ok. induction H; simpl; constructor; auto. apply bsub_xr. auto.
Qed.
Lemma en_distances_xr (pts zb : list (list R)) nd :
  length pts = length zb ->
  Forall (fun z => length z = length nd) pts -> Forall (fun z => length z = length nd) zb ->
  en_distances (N:=XR) (xm pts) (xm zb) (xv nd) = Ok (zipw (fun y z => pct y z nd) pts zb).
Proof.
  intros HL H1 H2. unfold en_distances. rewrite (rsub_rows pts), (rsub_rows zb) by auto. cbn [rbind].
  rewrite bcast2_eq by (rewrite !map_length; auto). cbn [rbind]. f_equal.
  clear H1 H2. revert zb HL. induction pts as [|y pts IH]; intros [|z zb] HL; cbn [map zipw]; try discriminate; auto.
  f_equal.
  - unfold pct. rewrite !vnorm_sub. reflexivity.
  - apply IH. simpl in HL. lia.
Qed.

Section Exact.
  Variables (F : list (list R)) (nd : list R) (k : nat).
  Hypothesis HF : Forall (fun r => length r = k) F.
  Hypothesis Hnd : length nd = k.

  (** Content of a request computed by the method. *)
  Definition request_spec (p : list R) (n : Z) (reach : nat -> Prop) (c : en_content XR) : Prop :=
    n <> 0%Z /\ ec_left c = n /\ ec_nadir c = xv nd /\
    exists zb, Forall (fun z => exists i, reach i /\ nth_error F i = Some z) zb /\
      ec_points c = xm (map (step_towards n p) zb) /\
      ec_dist c = map (fun z => pct (step_towards n p z) z nd) zb /\
      en_bounds (xm F) k (ec_points c) = Ok (ec_lb c, ec_ub c).

  Lemma next_exact km s q p :
    es_front s = xm F -> es_nadir s = xv nd -> es_pref s = Some (xv p) -> length p = k ->
    next_spec km s q ->
    exists mi c n np, q = EReq mi c /\ es_left s = Some n /\ es_npoints s = Some np /\
      request_spec p n (fun i => In i (idx_list (es_idx s))) c /\
      (km_ok km -> (1 <= np)%Z ->
       Z.of_nat (length (ec_points c)) = Z.min np (Z.of_nat (length (idx_list (es_idx s))))).
  Proof.
    intros Hfront Hnad Hpref Hp (np & p' & n & zbars & zs & lbs & ubs & ds & mi & Enp & Ep & En & Er & Ei & Eb & Ed & Em & ->).
    rewrite Hpref in Ep. injection Ep as <-.
    rewrite Hfront in *. rewrite Hnad in *.
    pose proof (en_representatives_rows _ _ _ _ _ Er) as Hrows.
    destruct (xm_rows_ex F zbars _ Hrows) as [zb [-> Hzb]].
    assert (Hlen : Forall (fun z => length z = k) zb).
    { eapply Forall_impl; [|exact Hzb]. intros z [i [_ Hi]]. rewrite Forall_forall in HF. apply HF.
      eapply nth_error_In; eauto. }
    apply en_intermediate_xr in Ei.
    2:{ eapply Forall_impl; [|exact Hlen]. simpl; intros; congruence. }
    destruct Ei as [Hn0 ->].
    exists mi, (MkEC (es_ideal s) (xv nd) (xm (map (step_towards n p) zb)) lbs ubs n ds), n, np.
    repeat split; auto.
    - exists zb. repeat split; auto; simpl.
      + rewrite en_distances_xr in Ed; auto.
        * injection Ed as <-. clear. induction zb as [|z zb IH]; simpl; auto. f_equal. auto.
        * apply map_length.
        * rewrite Forall_map. eapply Forall_impl; [|exact Hlen]. simpl; intros z Hz.
          rewrite step_towards_length; congruence.
        * eapply Forall_impl; [|exact Hlen]. simpl; intros; congruence.
      + rewrite xv_length, Hnd in Eb. auto.
    - intros Hk Hnp. simpl. rewrite xm_length, map_length.
      destruct (en_representatives_spec _ _ _ _ _ Hk Hnp Er) as [_ Hl]. rewrite xm_length in Hl. auto.
  Qed.

  (** Everything a forward answer can produce. *)
  Lemma forward_exact km c d s s' q p i :
    es_front s = xm F -> es_nadir s = xv nd ->
    d_step_back d = Some false -> d_index d = Some i -> py_nth (ec_points c) i = Ok (xv p) -> length p = k ->
    (forall lb, py_nth (ec_lb c) i = Ok lb -> length lb = k) ->
    (forall ub, py_nth (ec_ub c) i = Ok ub -> length ub = k) ->
    en_handle_request km c d s = (s', Ok q) ->
    (exists n, es_left s = Some n /\ (n <= 1)%Z /\ en_stop s' (xv p) = Ok q /\ es_left s' = Some 0%Z /\
       s' = set_left (Some 0%Z) (set_pref (Some (xv p)) s)) \/
    (exists n n' lb ub ids mi c',
       es_left s = Some n /\ (1 < n)%Z /\
       (if match d_change d with Some b => b | None => false end
        then d_iterations_left d = Some n' else n' = (n - 1)%Z) /\
       es_left s' = Some n' /\
       py_nth (ec_lb c) i = Ok lb /\ py_nth (ec_ub c) i = Ok ub /\
       increasing ids /\ (forall j, In j ids <-> exists row, nth_error (xm F) j = Some row /\ in_box row lb ub) /\
       q = EReq mi c' /\ request_spec p n' (fun j => In j ids) c' /\
       (forall np, km_ok km -> es_npoints s = Some np -> (1 <= np)%Z ->
          Z.of_nat (length (ec_points c')) = Z.min np (Z.of_nat (length ids))) /\
       s' = MkES (es_front s) (es_ideal s) (es_nadir s) (es_vars s) ub lb (squeeze_idx ids) (Some (xv p)) (es_npoints s) (Some n')).
  Proof.
    intros Hfront Hnad Hsb Hi Hp Hlp Hlb Hub H.
    destruct (en_forward_ok _ _ _ _ _ _ H Hsb) as (i' & p' & n & Ei & Ep & En & Hcase).
    rewrite Hi in Ei. injection Ei as <-. rewrite Hp in Ep. injection Ep as <-.
    destruct Hcase as [(Hn & Es & Hstop)|(Hn & lb & ub & ri & ch & n' & El & Eu & Er & Ec & En' & Es & Hnext)].
    - left. exists n. subst s'. repeat split; auto.
    - right.
      destruct (en_reachable_spec k (xm F) lb ub) as (idx & Eidx & Hinc & Hids); auto.
      { apply xm_is_matrix. auto. }
      rewrite Hfront, Eidx in Er. injection Er as <-.
      destruct (next_exact km s' q p) as (mi & c' & n2 & np & Eq & El2 & Enp & Hreq & Hlen); auto;
        try (subst s'; simpl; auto; fail).
      assert (Hsq : squeeze_idx (idx_list idx) = idx).
      { unfold en_reachable in Eidx. apply rbind_ok in Eidx. destruct Eidx as [m [_ E]]. injection E as <-.
        rewrite idx_list_squeeze. reflexivity. }
      assert (n2 = n') by (subst s'; simpl in El2; congruence). subst n2.
      exists n, n', lb, ub, (idx_list idx), mi, c'.
      rewrite Ec. repeat split; auto; try (subst s'; simpl in *; auto; fail).
      + apply Hids.
      + apply Hids.
      + apply Hreq.
      + apply Hreq.
      + apply Hreq.
      + subst s'. simpl in *. apply Hreq.
      + intros np' Hk Hnp' H1. subst s'. simpl in *. rewrite Hnp' in Enp. injection Enp as <-. auto.
      + subst s'. rewrite Hsq. reflexivity.
  Qed.

  Lemma initial_exact km d s s' q :
    es_front s = xm F -> es_nadir s = xv nd ->
    en_handle_initial km d s = (s', Ok q) ->
    exists n np mi c, 
      option_map as_int (d_n_iterations d) = Some (Some n) /\
      option_map as_int (d_n_points d) = Some (Some np) /\
      es_left s' = Some n /\ es_npoints s' = Some np /\
      es_front s' = xm F /\ es_nadir s' = xv nd /\ es_vars s' = es_vars s /\ es_pref s' = Some (xv nd) /\
      es_idx s' = es_idx s /\
      q = EReq mi c /\ request_spec nd n (fun j => In j (idx_list (es_idx s))) c /\
      (km_ok km -> (1 <= np)%Z ->
          Z.of_nat (length (ec_points c)) = Z.min np (Z.of_nat (length (idx_list (es_idx s))))).
  Proof.
    intros Hfront Hnad H.
    destruct (en_initial_ok _ _ _ _ _ H) as (ni & np & Eni & Enp & Es & Hnext).
    destruct (next_exact km s' q nd) as (mi & c' & n2 & np' & Eq & El2 & Enp' & Hreq & Hlen); auto;
      try (subst s'; simpl; auto; fail).
    { subst s'; simpl. congruence. }
    exists n2, np', mi, c'. rewrite Eni, Enp. subst s'. simpl in *.
    rewrite El2, Enp'. repeat split; auto; try congruence; try apply Hreq.
  Qed.

  Lemma nth_points n p zb i y :
    py_nth (xm (map (step_towards n p) zb)) i = Ok y ->
    exists z, In z zb /\ y = xv (step_towards n p z).
  Proof.
    intros H. apply py_nth_In in H. unfold xm in H. rewrite map_map in H.
    apply in_map_iff in H. destruct H as [z [Hz Hin]]. eauto.
  Qed.

  (** Stop: nearest row is the row itself. *)
  Lemma en_stop_exact s p q j0 :
    es_front s = xm F -> nth_error F j0 = Some p ->
    en_stop s (xv p) = Ok q ->
    exists sol, q = EStop (xv p) sol /\
      match es_vars s with
      | None => sol = None
      | Some V => exists j x, nth_error F j = Some p /\ nth_error V j = Some x /\ sol = Some x
      end.
  Proof.
    intros Hfront Hj0 H. unfold en_stop in H. destruct (es_vars s) as [V|].
    - rewrite Hfront in H.
      assert (Hlen : length p = k) by (rewrite Forall_forall in HF; apply HF; eapply nth_error_In; eauto).
      rewrite (rsub_rows F p) in H.
      2:{ eapply Forall_impl; [|exact HF]. simpl; intros; congruence. }
      cbn [rbind] in H. apply rbind_ok in H. destruct H as [j [Hj H]].
      apply rbind_ok in H. destruct H as [x [Hx H]]. injection H as <-.
      exists (Some x). split; auto.
      rewrite map_map in Hj.
      assert (E : map (fun z => vnorm (map (@nabs XR) (xv (rsub z p)))) F = xv (map (fun z => rdist z p) F)).
      { unfold xv at 2. rewrite map_map. apply map_ext. intros z. apply vnorm_abs_sub. }
      rewrite E in Hj.
      destruct (npargmin_ok XR_ord _ _ (xv_nan_free _) Hj) as (v & Hv & Hmin).
      destruct (Hmin j0 (Fin (rdist p p))) as [Hle _].
      { rewrite xv_nth, nth_error_map, Hj0. reflexivity. }
      rewrite xv_nth, nth_error_map in Hv. destruct (nth_error F j) as [z|] eqn:Ez; [|discriminate].
      simpl in Hv. injection Hv as <-. apply xleb_fin in Hle.
      rewrite (proj2 (rdist_0 p p eq_refl) eq_refl) in Hle.
      assert (Hz0 : rdist z p = 0) by (pose proof (rdist_nonneg z p); lra).
      apply rdist_0 in Hz0.
      2:{ rewrite Forall_forall in HF. rewrite Hlen. apply HF. eapply nth_error_In; eauto. }
      subst z. exists j, x. repeat split; auto. apply at_ok. auto.
    - injection H as <-. eauto.
  Qed.
End Exact.

(** ** Step back (C08) *)
Section Back.
  Context {N : NumOps}.
  Implicit Types (km : @km_oracle N) (s : en_state N) (d : en_dict N) (c : en_content N) (q : en_request N).

  (** States between two calls, without answering the initial request again. *)
  Inductive en_later : en_state N -> en_state N -> Prop :=
  | later_refl s : en_later s s
  | later_step s s' s'' km q resp out :
      en_later s s' -> (forall i n, q <> EInit i n) ->
      en_iterate km q resp s' = (s'', out) -> en_later s s''.

  Lemma en_later_data s s' : en_later s s' -> same_data s s' /\ es_npoints s' = es_npoints s.
  Proof.
    induction 1 as [s|s s' s'' km q resp out Hl [IH1 IH2] Hq E].
    - split; [apply same_data_refl|reflexivity].
    - pose proof (en_iterate_same_data km q resp s') as P. rewrite E in P. simpl in P. split.
      + eapply same_data_trans; eauto.
      + destruct q as [i n|mi c|o x].
        * exfalso. eapply Hq; eauto.
        * pose proof (en_request_same_np km mi c resp s') as P2. rewrite E in P2. unfold same_np in P2. simpl in P2. congruence.
        * simpl in E. unfold sret in E. inversion E; subst. auto.
  Qed.

  (** The result of a forward answer only depends on the data, the number of
      points, the iterations left and the request. *)
  Lemma en_forward_depends km c d s1 s2 :
    same_data s1 s2 -> es_npoints s2 = es_npoints s1 -> es_left s2 = es_left s1 ->
    d_step_back d = Some false ->
    snd (en_handle_request km c d s1) = snd (en_handle_request km c d s2).
  Proof.
    intros (A & B & C & D) E G Hsb.
    destruct s1, s2. simpl in *. subst.
    unfold en_handle_request. rewrite Hsb. unfold sbind, lift, sget, smod; simpl.
    destruct (key (d_index d)) as [i|]; simpl; [|reflexivity].
    destruct (py_nth (ec_points c) i) as [p|]; simpl; [|reflexivity].
    destruct es_left as [n|]; simpl; [|reflexivity].
    destruct (n <=? 1)%Z; simpl; [reflexivity|].
    destruct (py_nth (ec_lb c) i); simpl; [|reflexivity].
    destruct (py_nth (ec_ub c) i); simpl; [|reflexivity].
    destruct (en_reachable es_front a a0); simpl; [|reflexivity].
    destruct (key (d_change d)) as [[]|]; simpl; [| |reflexivity].
    - destruct (key (d_iterations_left d)); simpl; reflexivity.
    - reflexivity.
  Qed.
End Back.
