(** * NAUTILUS Navigator: decomposition of the model and invariants. *)
From Coq Require Import ZArith List Bool Lia.
From Verif Require Import Num Py Np Spec NpFacts MNavigator PENautilus.
Import ListNotations.

Lemma lift_ok {S A} (r : res A) (s s' : S) a : lift r s = (s', Ok a) -> s' = s /\ r = Ok a.
Proof. unfold lift. intros H. inversion H. auto. Qed.

Section Nav.
  Context {N : NumOps}.
  Notation vec := (list N).
  Notation mat := (list (list N)).
  Implicit Types (asf : @asf_fn N) (s : nv_state N) (d : nv_dict N) (c : nv_content N) (q : nv_request N)
    (front : list (list N)).

  Lemma state_ext s1 s2 :
    ns_front s1 = ns_front s2 -> ns_ideal s1 = ns_ideal s2 -> ns_nadir s1 = ns_nadir s2 -> ns_vars s1 = ns_vars s2 ->
    ns_lb s1 = ns_lb s2 -> ns_ub s1 = ns_ub s2 -> ns_bounds s1 = ns_bounds s2 -> ns_idx s1 = ns_idx s2 ->
    ns_step s1 = ns_step s2 -> ns_left s1 = ns_left s2 -> ns_dist s1 = ns_dist s2 -> ns_speed s1 = ns_speed s2 ->
    ns_ref s1 = ns_ref s2 -> ns_nav s1 = ns_nav s2 -> ns_proj s1 = ns_proj s2 -> s1 = s2.
  Proof. destruct s1, s2; cbn; intros; subst; reflexivity. Qed.

  (** ** Heap-free versions *)
  Definition admissible_mask front (idx : idxarr) (bounds : vec) (bmask : list bool) : Prop :=
    let mask := map (fun i => existsb (Nat.eqb i) (idx_list idx)) (seq 0 (length front)) in
    rseq (map (fun row => bany (fun x y => nltb y x) row bounds) (nan_rows (map negb mask) front)) = Ok bmask.

  Definition masked front (idx : idxarr) (bmask : list bool) : mat :=
    nan_rows bmask (nan_rows (map negb (map (fun i => existsb (Nat.eqb i) (idx_list idx)) (seq 0 (length front)))) front).

  Lemma nv_solve_ok asf front idx ref ideal nadir bounds h i :
    nv_solve asf [front] 0 idx ref ideal nadir bounds = Ok (h, i) ->
    h_get h 0 = Ok front /\
    (exists rows, take front (idx_list idx) = Ok rows) /\
    exists bmask, admissible_mask front idx bounds bmask /\
      npnanargmin (map (fun row => asf nadir ideal row ref) (masked front idx bmask)) = Ok i.
  Proof.
    intros H. unfold nv_solve in H. cbn [h_get at_ nth_error rbind h_new app length] in H.
    apply rbind_ok in H. destruct H as (rows & Hrows & H).
    apply rbind_ok in H. destruct H as (h2 & Hh2 & H). unfold h_set, set_ in Hh2. cbn in Hh2. injection Hh2 as <-.
    apply rbind_ok in H. destruct H as (bmask & Hb & H).
    apply rbind_ok in H. destruct H as (h3 & Hh3 & H). unfold h_set, set_ in Hh3. cbn in Hh3. injection Hh3 as <-.
    apply rbind_ok in H. destruct H as (j & Hj & H). injection H as <- <-.
    split; [reflexivity|]. split; [eauto|]. exists bmask. split; auto.
  Qed.

  Lemma nv_bounds_ok front rows k nav bounds plb pub h lb ub :
    nv_bounds ([front] ++ [rows]) 1 k nav bounds plb pub = Ok (h, (lb, ub)) ->
    h_get h 0 = Ok front /\ length nav = k /\
    exists bmask bs, rseq (map (fun row => bany (fun x y => nltb y x) row bounds) rows) = Ok bmask /\
      rseq (map (nv_bound1 (nan_rows bmask rows) nav plb pub) (seq 0 k)) = Ok bs /\
      lb = map fst bs /\ ub = map snd bs.
  Proof.
    intros H. unfold nv_bounds in H. cbn [h_get at_ nth_error rbind app] in H.
    apply rbind_ok in H. destruct H as (bmask & Hb & H).
    apply rbind_ok in H. destruct H as (h' & Hh & H). unfold h_set, set_ in Hh. cbn in Hh. injection Hh as <-.
    destruct (Nat.eqb_spec (length nav) k) as [E|]; [|discriminate]. cbn [negb] in H.
    apply rbind_ok in H. destruct H as (bs & Hbs & H). injection H as <- <- <-.
    split; [reflexivity|]. split; auto. exists bmask, bs. auto.
  Qed.

  (** Whether a forward answer projects the reference point anew. *)
  Definition reprojects s (ref : vec) (b : bool) : Prop :=
    (ns_step s = 1%Z /\ b = true) \/
    (ns_step s <> 1%Z /\ exists r0 cl, ns_ref s = Some r0 /\ allclose ref r0 = Ok cl /\ b = negb cl).

  Definition projection asf s (ref : vec) (pi : nat) : Prop :=
    exists bmask, admissible_mask (ns_front s) (ns_idx s) (ns_bounds s) bmask /\
      npnanargmin (map (fun row => asf (ns_nadir s) (ns_ideal s) row ref) (masked (ns_front s) (ns_idx s) bmask)) = Ok pi.

  Definition bounds_spec front rows (k : nat) (nav bounds plb pub lb ub : vec) : Prop :=
    length nav = k /\
    exists bmask bs, rseq (map (fun row => bany (fun x y => nltb y x) row bounds) rows) = Ok bmask /\
      rseq (map (nv_bound1 (nan_rows bmask rows) nav plb pub) (seq 0 k)) = Ok bs /\
      lb = map fst bs /\ ub = map snd bs.

  Definition forward_spec asf s (ref : vec) (speed : pyval N) (bounds : vec) s' q : Prop :=
    exists again pi proj nav rows lb ub dist idx,
      reprojects s ref again /\
      (if again : bool then projection asf s ref pi else ns_proj s = Some pi) /\
      nth_error (ns_front s) pi = Some proj /\
      nv_nav_point proj (ns_nav s) (ns_left s) = Ok nav /\
      take (ns_front s) (idx_list (ns_idx s)) = Ok rows /\
      bounds_spec (ns_front s) rows (length (ns_nadir s)) nav bounds (ns_lb s) (ns_ub s) lb ub /\
      nv_distance nav proj (ns_nadir s) = Ok dist /\
      nv_reachable (ns_front s) lb ub = Ok idx /\
      s' = MkNS (ns_front s) (ns_ideal s) (ns_nadir s) (ns_vars s) lb ub bounds idx
                (if (ns_left s =? 1)%Z then ns_step s else ns_step s + 1)%Z
                (if (ns_left s =? 1)%Z then ns_left s else ns_left s - 1)%Z
                dist (if (ns_step s =? 1)%Z then Some speed else ns_speed s)
                (if again then Some ref else ns_ref s) nav (Some pi) /\
      q = nv_request_of s'.

  Lemma nv_forward_ok asf ref speed bounds s s' q :
    nv_forward asf ref speed bounds s = (s', Ok q) -> forward_spec asf s ref speed bounds s' q.
  Proof.
    intros H. unfold nv_forward in H.
    apply sbind_ok in H. destruct H as (s_ & s0 & E & H). unfold sget in E. injection E as <- <-.
    apply sbind_ok in H. destruct H as (again & s1 & E & H).
    assert (Hag : s1 = s /\ reprojects s ref again).
    { destruct (Z.eqb_spec (ns_step s) 1) as [E1|E1].
      - unfold sret in E. injection E as <- <-. split; auto. left; auto.
      - apply sbind_ok in E. destruct E as (r0 & s2 & E & E').
        apply lift_ok in E. destruct E as [-> E]. 
        apply sbind_ok in E'. destruct E' as (c & s3 & E'' & E').
        apply lift_ok in E''. destruct E'' as [-> E'']. unfold sret in E'. injection E' as <- <-.
        split; auto. right. split; auto. exists r0, c. split; auto.
        unfold some_or in E. destruct (ns_ref s); [injection E as <-; auto|discriminate]. }
    destruct Hag as [-> Hag]. clear E.
    apply sbind_ok in H. destruct H as (u & s1 & E & H).
    assert (Hs1 : exists pi, (if again : bool then projection asf s ref pi else True) /\
       s1 = (if again then w_proj (Some ref) (Some pi) (w_front (ns_front s) (if (ns_step s =? 1)%Z then w_speed (Some speed) s else s)) else s)).
    { destruct again.
      - apply sbind_ok in E. destruct E as (u1 & s2 & E1 & E).
        assert (Es2 : s2 = if (ns_step s =? 1)%Z then w_speed (Some speed) s else s).
        { destruct (ns_step s =? 1)%Z; unfold smod, sret in E1; injection E1 as <-; auto. }
        clear E1.
        apply sbind_ok in E. destruct E as (r & s3 & E1 & E). apply lift_ok in E1. destruct E1 as [-> E1].
        destruct r as [h pi]. cbn [fst snd] in E. apply nv_solve_ok in E1. destruct E1 as (Hh & _ & Hproj).
        apply sbind_ok in E. destruct E as (f' & s3 & E1 & E). apply lift_ok in E1. destruct E1 as [-> E1].
        rewrite Hh in E1. injection E1 as <-.
        unfold sbind, smod in E. injection E as <- _. exists pi. split; [exact Hproj|]. subst s2. reflexivity.
      - unfold sret in E. injection E as <- _. exists 0%nat. auto. }
    destruct Hs1 as (pi0 & Hproj & Es1). clear E u.
    apply sbind_ok in H. destruct H as (s1' & s1'' & E & H). unfold sget in E. injection E as <- <-.
    apply sbind_ok in H. destruct H as (pi & s2 & E & H). apply lift_ok in E. destruct E as [-> Epi].
    apply sbind_ok in H. destruct H as (proj & s2 & E & H). apply lift_ok in E. destruct E as [-> Eproj].
    apply sbind_ok in H. destruct H as (nav & s2 & E & H). apply lift_ok in E. destruct E as [-> Enav].
    apply sbind_ok in H. destruct H as (u & s2 & E & H). unfold smod in E. injection E as <- _.
    apply sbind_ok in H. destruct H as (rows & s2 & E & H). apply lift_ok in E. destruct E as [-> Erows].
    cbn [h_new length] in H.
    apply sbind_ok in H. destruct H as (b & s2 & E & H). apply lift_ok in E. destruct E as [-> Eb].
    destruct b as [h [lb ub]]. cbn [fst snd] in H.
    apply sbind_ok in H. destruct H as (f' & s2 & E & H). apply lift_ok in E. destruct E as [-> Ef'].
    apply nv_bounds_ok in Eb. destruct Eb as (Hh & Hb). rewrite Hh in Ef'. injection Ef' as <-.
    apply sbind_ok in H. destruct H as (u1 & s2 & E & H). unfold smod in E. injection E as <- _.
    apply sbind_ok in H. destruct H as (u2 & s2 & E & H). unfold smod in E. injection E as <- _.
    apply sbind_ok in H. destruct H as (s2 & s2' & E & H). unfold sget in E. injection E as <- <-.
    apply sbind_ok in H. destruct H as (proj2 & s2 & E & H). apply lift_ok in E. destruct E as [-> Eproj2].
    apply sbind_ok in H. destruct H as (dist & s2 & E & H). apply lift_ok in E. destruct E as [-> Edist].
    apply sbind_ok in H. destruct H as (u3 & s2 & E & H). unfold smod in E. injection E as <- _.
    apply sbind_ok in H. destruct H as (idx & s2 & E & H). apply lift_ok in E. destruct E as [-> Eidx].
    apply sbind_ok in H. destruct H as (u4 & s2 & E & H). unfold smod in E. injection E as <- _.
    apply sbind_ok in H. destruct H as (s3 & s3' & E & H). unfold sget in E. injection E as <- <-.
    apply sbind_ok in H. destruct H as (u5 & s4 & E & H).
    apply sbind_ok in H. destruct H as (s5 & s5' & E' & H). unfold sget in E'. injection E' as <- <-.
    unfold sret in H. injection H as <- <-.
    exists again, pi, proj, nav, rows, lb, ub, dist, idx.
    assert (X : ns_front s1 = ns_front s /\ ns_nav s1 = ns_nav s /\ ns_left s1 = ns_left s /\ ns_nadir s1 = ns_nadir s /\
      ns_idx s1 = ns_idx s /\ ns_lb s1 = ns_lb s /\ ns_ub s1 = ns_ub s /\ ns_ideal s1 = ns_ideal s /\ ns_vars s1 = ns_vars s /\
      ns_step s1 = ns_step s /\ ns_bounds s1 = ns_bounds s /\
      ns_ref s1 = (if again then Some ref else ns_ref s) /\
      ns_speed s1 = (if (ns_step s =? 1)%Z then Some speed else ns_speed s)).
    { subst s1. destruct again; [destruct (ns_step s =? 1)%Z; simpl; auto 20|].
      repeat split; auto. destruct Hag as [[_ ?]|[Hne _]]; [discriminate|].
      apply Z.eqb_neq in Hne. rewrite Hne. auto. }
    destruct X as (X1 & X2 & X3 & X4 & X5 & X6 & X7 & X8 & X9 & X10 & X11 & X12 & X13).
    cbn [ns_front ns_lb ns_ub ns_nadir ns_left ns_step ns_proj w_front w_lu w_nav w_dist w_idx] in *.
    rewrite X1 in *. rewrite X2, X3 in *. rewrite X4, X5, X6, X7 in *.
    apply at_ok in Eproj. apply at_ok in Eproj2.
    assert (proj2 = proj) by congruence. subst proj2.
    split; [auto|]. split.
    { destruct again; [|]. 
      - subst s1. cbn in Epi. injection Epi as <-. auto.
      - subst s1. unfold some_or in Epi. destruct (ns_proj s); [injection Epi as <-; auto|discriminate]. }
    split; [auto|]. split; [auto|]. split; [auto|]. split; [exact Hb|]. split; [auto|]. split; [auto|].
    split; [|reflexivity].
    assert (Hpi : ns_proj s1 = Some pi) by (unfold some_or in Epi; destruct (ns_proj s1); congruence).
    destruct (ns_left s =? 1)%Z.
    - unfold sret in E. injection E as <- _. apply state_ext; cbn; congruence.
    - unfold smod in E. injection E as <- _. apply state_ext; cbn; congruence.
  Qed.
End Nav.
