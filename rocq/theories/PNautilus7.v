(** * NAUTILUS 2: directions of improvement from pairwise ratios, in exact
    arithmetic. *)
From Coq Require Import ZArith List Bool Lia Reals Lra Permutation.
From Verif Require Import Num NumXR Py Np Spec NpFacts XRFacts PRpm MNautilus SNautilus PNautilus PNautilus2.
Import ListNotations.

Definition edge := (nat * nat * R)%type.
Definition ea (e : edge) := fst (fst e).
Definition eb (e : edge) := snd (fst e).
Definition et (e : edge) := snd e.
Definition zedge (e : edge) : Z * Z * XR := (Z.of_nat (ea e), Z.of_nat (eb e), Fin (et e) : XR).
Definition ein (k : nat) (e : edge) : Prop := 1 <= ea e <= k /\ 1 <= eb e <= k /\ (0 < et e)%R.
(** A chain of edges. *)
Inductive chain (es : list edge) : nat -> nat -> Prop :=
| chain_refl i : chain es i i
| chain_step i j m e : chain es i j -> In e es -> (ea e = j /\ eb e = m) \/ (ea e = m /\ eb e = j) -> chain es i m.

Lemma filter_len_le0 {A} (f : A -> bool) l : length (filter f l) <= length l.
Proof. induction l as [|a l IH]; cbn; [lia|]. destruct (f a); cbn; lia. Qed.

(** ** A potential for a tree *)
  Lemma crossing (es : list edge) (S : list nat) i : In 1 S -> ~ In i S -> chain es 1 i ->
    exists e, In e es /\ ((In (ea e) S /\ ~ In (eb e) S) \/ (In (eb e) S /\ ~ In (ea e) S)).
  Proof.
    intros H1 Hi H. remember 1 as o. induction H as [i|i j m e H IH He Hem]; subst; [contradiction|].
    destruct (in_dec Nat.eq_dec j S) as [Hj|Hj]; [|auto]. exists e. split; [exact He|]. destruct Hem as [[<- <-]|[<- <-]]; auto.
  Qed.
Section Tree.
  Context (k : nat) (es : list edge) (HE : Forall (ein k) es) (HK : 0 < k) (HL : length es = k - 1).
  Context (HC : forall i, 1 <= i <= k -> chain es 1 i).
  Definition fits (phi : nat -> R) (e : edge) : Prop := phi (eb e) = (et e * phi (ea e))%R.

  Lemma grow (d : nat) : forall (S : list nat) (done todo : list edge) (phi : nat -> R),
    k - length S = d -> In 1 S -> NoDup S -> (forall i, In i S -> 1 <= i <= k) ->
    Permutation es (done ++ todo) -> length done = length S - 1 ->
    phi 1 = 1%R -> (forall i, In i S -> (0 < phi i)%R) -> Forall (fun e => In (ea e) S /\ In (eb e) S /\ fits phi e) done ->
    exists phi', phi' 1 = 1%R /\ (forall i, 1 <= i <= k -> (0 < phi' i)%R) /\ Forall (fits phi') es.
  Proof.
    induction d as [|d IH]; intros S done todo phi Hd H1 HN HS HP HD Hphi Hpos HF.
    - assert (Hinc : incl S (seq 1 k)) by (intros i Hi; apply in_seq; specialize (HS i Hi); lia).
      assert (Hlen : length S = k).
      { pose proof (NoDup_incl_length HN Hinc) as B. rewrite seq_length in B. destruct S; [destruct H1|]. cbn [length] in *. lia. }
      assert (Hall : forall i, 1 <= i <= k -> In i S).
      { intros i Hi. assert (Hi' : In i (seq 1 k)) by (apply in_seq; lia). revert i Hi' Hi. intros i Hi' _. refine (NoDup_length_incl HN _ Hinc i Hi'). rewrite seq_length. lia. }
      exists phi. split; [exact Hphi|]. split; [intros i Hi; apply Hpos, Hall, Hi|].
      pose proof (Permutation_length HP) as PL. rewrite app_length in PL. assert (todo = []) by (destruct todo; [reflexivity|cbn in PL; lia]). subst todo. rewrite app_nil_r in HP.
      apply Forall_forall. intros e He. apply (Permutation_in _ HP) in He. rewrite Forall_forall in HF. apply HF, He.
    - (* some vertex is missing *)
      assert (Hm : exists i, 1 <= i <= k /\ ~ In i S).
      { destruct (List.existsb (fun i => negb (existsb (Nat.eqb i) S)) (seq 1 k)) eqn:E.
        - apply existsb_exists in E as (i & Hi & E). apply in_seq in Hi. exists i. split; [lia|]. intros K. apply negb_true_iff in E.
          assert (existsb (Nat.eqb i) S = true) by (apply existsb_exists; exists i; split; [exact K|apply Nat.eqb_refl]). congruence.
        - exfalso. assert (Hinc : incl (seq 1 k) S).
          { intros i Hi. destruct (in_dec Nat.eq_dec i S) as [K|K]; [exact K|]. exfalso.
            assert (existsb (fun i => negb (existsb (Nat.eqb i) S)) (seq 1 k) = true); [|congruence]. apply existsb_exists. exists i. split; [exact Hi|]. apply negb_true_iff.
            destruct (existsb (Nat.eqb i) S) eqn:E2; [|reflexivity]. apply existsb_exists in E2 as (j & Hj & E2). apply Nat.eqb_eq in E2. subst j. contradiction. }
          pose proof (NoDup_incl_length (seq_NoDup k 1) Hinc) as B. rewrite seq_length in B. lia. }
      destruct Hm as (i & Hi & Hni). destruct (crossing es S i H1 Hni (HC i Hi)) as (e & He & Hcr).
      assert (Hein : ein k e) by (rewrite Forall_forall in HE; apply HE, He). destruct Hein as (B1 & B2 & B3).
      assert (Htodo : In e todo).
      { apply (Permutation_in _ HP) in He. apply in_app_or in He as [He|He]; [|exact He]. exfalso. rewrite Forall_forall in HF. destruct (HF e He) as (K1 & K2 & _). tauto. }
      apply in_split in Htodo as (t1 & t2 & ->).
      assert (HP' : Permutation es ((e :: done) ++ t1 ++ t2)).
      { eapply Permutation_trans; [exact HP|]. cbn [app]. rewrite !app_assoc. symmetry. apply Permutation_middle. }
      assert (Hlen : length S < k) by lia. assert (Hl0 : 1 <= length S) by (destruct S; [destruct H1|cbn; lia]).
      assert (HX : forall (old new : nat) (val : R), In old S -> ~ In new S -> 1 <= new <= k -> (0 < val)%R ->
                (forall phi2, (forall x, In x S -> phi2 x = phi x) -> phi2 new = val -> fits phi2 e) -> (ea e = old /\ eb e = new) \/ (ea e = new /\ eb e = old) ->
                exists phi', phi' 1 = 1%R /\ (forall i, 1 <= i <= k -> (0 < phi' i)%R) /\ Forall (fits phi') es).
      { intros old new val Ho Hn Hb Hv Hfit Hends. set (phi2 := fun x => if Nat.eq_dec x new then val else phi x).
        assert (P1 : forall x, In x S -> phi2 x = phi x) by (intros x Hx; unfold phi2; destruct (Nat.eq_dec x new); [subst; contradiction|reflexivity]).
        assert (P2 : phi2 new = val) by (unfold phi2; destruct (Nat.eq_dec new new); [reflexivity|congruence]).
        apply (IH (new :: S) (e :: done) (t1 ++ t2) phi2).
        - cbn [length]. lia.
        - right. exact H1.
        - constructor; assumption.
        - intros x [<-|Hx]; [exact Hb|apply HS, Hx].
        - exact HP'.
        - cbn [length]. lia.
        - rewrite P1 by exact H1. exact Hphi.
        - intros x [<-|Hx]; [rewrite P2; exact Hv|]. rewrite P1 by exact Hx. apply Hpos, Hx.
        - constructor.
          + split; [|split; [|apply Hfit; assumption]]; destruct Hends as [[E1 E2]|[E1 E2]]; rewrite ?E1, ?E2; cbn [In]; auto.
          + eapply Forall_impl; [|exact HF]. intros e' (K1 & K2 & K3). split; [right; exact K1|]. split; [right; exact K2|]. unfold fits in *. rewrite !P1 by assumption. exact K3. }
      destruct Hcr as [[K1 K2]|[K1 K2]].
      + apply (HX (ea e) (eb e) (et e * phi (ea e))%R); auto.
        * apply Rmult_lt_0_compat; [exact B3|apply Hpos, K1].
        * intros phi2 G1 G2. unfold fits. rewrite G2, G1 by exact K1. reflexivity.
      + apply (HX (eb e) (ea e) (phi (eb e) / et e)%R); auto.
        * apply Rmult_lt_0_compat; [apply Hpos, K1|apply Rinv_0_lt_compat, B3].
        * intros phi2 G1 G2. unfold fits. rewrite G2, G1 by exact K1. field. lra.
  Qed.
  Lemma potential : exists phi, phi 1 = 1%R /\ (forall i, 1 <= i <= k -> (0 < phi i)%R) /\ Forall (fits phi) es.
  Proof.
    apply (grow (k - 1) [1] [] es (fun _ => 1%R)); cbn; auto.
    - constructor; [intros []|constructor].
    - intros i [<-|[]]. lia.
    - intros i _. lra.
  Qed.
End Tree.

(** ** The algorithm on real directions *)
Section Algo.
  Context (k : nat) (HK : 0 < k).
  Definition val (rs : list R) (m : nat) : R := nth (m - 1) rs 0%R.
  Definition upd (rs : list R) (m : nat) (d : R) (rs' : list R) : Prop :=
    length rs' = length rs /\ val rs' m = d /\ forall j, 1 <= j -> j <> m -> val rs' j = val rs j.
  Lemma set_xv rs i (d : R) ds' : set_nth (xv rs : list XR) i (Fin d : XR) = Some ds' -> exists rs', ds' = xv rs' /\ set_nth rs i d = Some rs'.
  Proof.
    revert i ds'. induction rs as [|x rs IH]; intros [|i] ds' H; cbn in H |- *; try discriminate.
    - injection H as <-. exists (d :: rs). split; reflexivity.
    - destruct (set_nth (map Fin rs) i (Fin d)) as [r|] eqn:E; [|discriminate]. injection H as <-. destruct (IH _ _ E) as (rs' & -> & E'). rewrite E'. exists (x :: rs'). split; reflexivity.
  Qed.
  Lemma set_upd rs m d rs' : 1 <= m -> set_nth rs (m - 1) d = Some rs' -> upd rs m d rs'.
  Proof.
    intros Hm H. split; [eapply set_nth_length; exact H|]. pose proof (set_nth_get_same _ _ _ _ H) as G. unfold val. split; [apply nth_error_nth, G|].
    intros j Hj Hne. pose proof (set_nth_get_other rs (m - 1) (j - 1) d rs' H ltac:(lia)) as E.
    destruct (nth_error rs (j - 1)) eqn:E2; [rewrite (nth_error_nth _ _ _ E), (nth_error_nth _ _ _ E2); reflexivity|].
    rewrite !nth_overflow; [reflexivity|..]; apply nth_error_None; assumption.
  Qed.
  Lemma set_real rs m d : length rs = k -> 1 <= m <= k -> exists rs', doi_set (xv rs : list XR) (Z.of_nat m) (Fin d : XR) = Ok (xv rs') /\ upd rs m d rs'.
  Proof.
    intros Hl Hm. destruct (doi_set_in k (xv rs : list XR) (Z.of_nat m) (Fin d : XR)) as (ds' & E & _ & E2); [rewrite xv_length; exact Hl|unfold zin; lia|].
    replace (Z.to_nat (Z.of_nat m - 1)) with (m - 1) in E2 by lia. destruct (set_xv _ _ _ _ E2) as (rs' & -> & E3). exists rs'. split; [exact E|]. apply set_upd; [lia|exact E3].
  Qed.
  Lemma get_real rs m : length rs = k -> 1 <= m <= k -> py_nth (xv rs : list XR) (Z.of_nat m - 1) = Ok (Fin (val rs m) : XR).
  Proof.
    intros Hl Hm. destruct (py_nth_in k (xv rs : list XR) (Z.of_nat m)) as (d & E & E2); [rewrite xv_length; exact Hl|unfold zin; lia|]. rewrite E. f_equal.
    replace (Z.to_nat (Z.of_nat m - 1)) with (m - 1) in E2 by lia. rewrite xv_nth in E2. unfold val. destruct (nth_error rs (m - 1)) eqn:E3; [|discriminate]. injection E2 as <-. rewrite (nth_error_nth _ _ _ E3). reflexivity.
  Qed.
  Lemma eqb0 (r : R) : @neqb XR (Fin r : XR) (nofZ 0) = true <-> r = 0%R.
  Proof. cbn. unfold xeqb. cbn. rewrite andb_true_iff, !rleb_true. lra. Qed.
  Lemma eqb0f (r : R) : @neqb XR (Fin r : XR) (nofZ 0) = false <-> r <> 0%R.
  Proof. rewrite <- not_true_iff_false, eqb0. tauto. Qed.
  Lemma inv_real (r : R) : (0 < r)%R -> doi_inv (Fin r : XR) = Ok (Fin (1 / r) : XR).
  Proof.
    intros H. unfold doi_inv. assert (E : @neqb XR (Fin r : XR) (nofZ 0) = false) by (apply eqb0f; lra). rewrite E. f_equal. change (@ndiv XR) with xdiv. cbn [nofZ XR]. apply xdiv_fin. lra.
  Qed.

  Lemma first_cases e rs : ein k e -> length rs = k -> exists rs', doi_first (xv rs) (zedge e) = Ok (xv rs' : list XR) /\
    ((rs' = rs /\ ea e <> 1 /\ eb e <> 1) \/ (ea e = 1 /\ upd rs (eb e) (et e) rs') \/ (ea e <> 1 /\ eb e = 1 /\ upd rs (ea e) (1 / et e)%R rs')).
  Proof.
    intros (B1 & B2 & B3) Hl. unfold doi_first, zedge. destruct (Z.eqb_spec (Z.of_nat (ea e)) 1) as [E|E].
    - destruct (set_real rs (eb e) (et e) Hl B2) as (rs' & G1 & G2). exists rs'. split; [exact G1|]. right. left. split; [lia|exact G2].
    - destruct (Z.eqb_spec (Z.of_nat (eb e)) 1) as [E'|E'].
      + rewrite inv_real by exact B3. cbn [rbind]. destruct (set_real rs (ea e) (1 / et e)%R Hl B1) as (rs' & G1 & G2). exists rs'. split; [exact G1|]. right. right. split; [lia|]. split; [lia|exact G2].
      + exists rs. split; [reflexivity|]. left. split; [reflexivity|lia].
  Qed.
  Lemma entry_cases m e rs : ein k e -> length rs = k -> exists rs', doi_entry (Z.of_nat m) (xv rs) (zedge e) = Ok (xv rs' : list XR) /\
    ((rs' = rs /\ ~ (ea e = m /\ val rs (eb e) <> 0%R) /\ ~ (ea e <> m /\ eb e = m /\ val rs (ea e) <> 0%R)) \/
     (ea e = m /\ val rs (eb e) <> 0%R /\ upd rs m (val rs (eb e) * (1 / et e))%R rs') \/
     (eb e = m /\ val rs (ea e) <> 0%R /\ upd rs m (val rs (ea e) * et e)%R rs')).
  Proof.
    intros (B1 & B2 & B3) Hl. unfold doi_entry, zedge. destruct (Z.eqb_spec (Z.of_nat (ea e)) (Z.of_nat m)) as [E|E].
    - assert (ea e = m) by lia. rewrite get_real by assumption. cbn [rbind]. destruct (neqb _ _) eqn:E0.
      + apply eqb0 in E0. exists rs. split; [reflexivity|]. left. split; [reflexivity|]. split; [intros [_ K]; contradiction|]. intros [K _]. contradiction.
      + apply eqb0f in E0. rewrite inv_real by exact B3. cbn [rbind]. change (@nmul XR) with xmul. cbn [xmul].
        destruct (set_real rs (ea e) (val rs (eb e) * (1 / et e))%R Hl B1) as (rs' & G1 & G2). exists rs'. split; [exact G1|]. right. left. subst m. auto.
    - destruct (Z.eqb_spec (Z.of_nat (eb e)) (Z.of_nat m)) as [E'|E'].
      + assert (eb e = m) by lia. rewrite get_real by assumption. cbn [rbind]. destruct (neqb _ _) eqn:E0.
        * apply eqb0 in E0. exists rs. split; [reflexivity|]. left. split; [reflexivity|]. split; [intros [K _]; lia|]. intros (_ & _ & K). contradiction.
        * apply eqb0f in E0. change (@nmul XR) with xmul. cbn [xmul].
          destruct (set_real rs (eb e) (val rs (ea e) * et e)%R Hl B2) as (rs' & G1 & G2). exists rs'. split; [exact G1|]. right. right. subst m. auto.
      + exists rs. split; [reflexivity|]. left. split; [reflexivity|]. split; [intros [K _]; lia|]. intros (_ & K & _). lia.
  Qed.

  (** A fold of steps that preserve an invariant. *)
  Lemma rfold_inv {B} (f : list XR -> B -> res (list XR)) (I : list R -> Prop) (G : B -> Prop) :
    (forall rs b, I rs -> G b -> exists rs', f (xv rs) b = Ok (xv rs') /\ I rs') ->
    forall l rs, Forall G l -> I rs -> exists rs', rfold f l (xv rs) = Ok (xv rs') /\ I rs'.
  Proof.
    intros H l. induction l as [|b l IH]; intros rs Hl Hr; [exists rs; split; [reflexivity|exact Hr]|]. inversion Hl; subst. cbn [rfold].
    destruct (H rs b Hr) as (r1 & E & H1); [assumption|]. rewrite E. cbn [rbind]. apply IH; auto.
  Qed.
  Lemma rfold_split {A B} (f : A -> B -> res A) l1 b l2 a : rfold f (l1 ++ b :: l2) a = (do a1 <- rfold f l1 a; do a2 <- f a1 b; rfold f l2 a2).
  Proof. revert a. induction l1 as [|c l1 IH]; intros a; [reflexivity|]. cbn [app rfold]. destruct (f a c) as [a'|e]; cbn [rbind]; [apply IH|reflexivity]. Qed.

  Context (es : list edge) (HE : Forall (ein k) es).
  Let ps := map zedge es.
  Lemma ps_forall : Forall (fun q => exists e, In e es /\ ein k e /\ q = zedge e) ps.
  Proof. apply Forall_forall. intros q Hq. apply in_map_iff in Hq as (e & <- & He). exists e. rewrite Forall_forall in HE. auto. Qed.

  (** *** Connected: every direction agrees with the potential *)
  Section Connected.
    Context (phi : nat -> R) (Hphi : phi 1 = 1%R) (Hpos : forall i, 1 <= i <= k -> (0 < phi i)%R) (Hfit : Forall (fits phi) es).
    Definition good (rs : list R) : Prop := length rs = k /\ val rs 1 <> 0%R /\ forall m, 1 <= m <= k -> val rs m = 0%R \/ val rs m = phi m.
    (** nonzero directions stay so *)
    Definition kept (rs rs' : list R) : Prop := forall m, 1 <= m <= k -> val rs m <> 0%R -> val rs' m <> 0%R.
    Lemma upd_good rs m rs' : 1 <= m <= k -> good rs -> upd rs m (phi m) rs' -> good rs' /\ kept rs rs' /\ val rs' m <> 0%R.
    Proof.
      intros Hm (G1 & G0 & G2) (U1 & U2 & U3). assert (N : val rs' m <> 0%R) by (rewrite U2; specialize (Hpos m Hm); lra).
      assert (K : kept rs rs') by (intros j Hj Hn; destruct (Nat.eq_dec j m) as [->|Hne]; [exact N|rewrite U3 by lia; exact Hn]).
      split; [|split; [exact K|exact N]]. split; [lia|]. split; [apply K; [lia|exact G0]|].
      intros j Hj. destruct (Nat.eq_dec j m) as [->|Hne]; [right; exact U2|]. rewrite U3 by lia. apply G2, Hj.
    Qed.
    Lemma fit_of e : In e es -> phi (eb e) = (et e * phi (ea e))%R.
    Proof. rewrite Forall_forall in Hfit. apply Hfit. Qed.
    Lemma first_good e rs : In e es -> good rs -> exists rs', doi_first (xv rs) (zedge e) = Ok (xv rs' : list XR) /\ good rs'.
    Proof.
      intros He Hg. rewrite Forall_forall in HE. pose proof (HE e He) as He'. destruct (first_cases e rs He' (proj1 Hg)) as (rs' & E & C). exists rs'. split; [exact E|].
      destruct He' as (B1 & B2 & B3). pose proof (fit_of e He) as FT. destruct C as [(-> & _)|[(C1 & C2)|(C0 & C1 & C2)]]; [exact Hg|..].
      - rewrite C1, Hphi, Rmult_1_r in FT. rewrite <- FT in C2. apply (upd_good rs (eb e) rs' B2 Hg C2).
      - rewrite C1, Hphi in FT. assert (E1 : (1 / et e = phi (ea e))%R) by (rewrite FT; field; lra). rewrite E1 in C2. apply (upd_good rs (ea e) rs' B1 Hg C2).
    Qed.
    Lemma entry_good m e rs : 1 <= m <= k -> In e es -> good rs -> exists rs', doi_entry (Z.of_nat m) (xv rs) (zedge e) = Ok (xv rs' : list XR) /\ good rs' /\ kept rs rs' /\
      (ea e <> eb e -> (ea e = m /\ val rs (eb e) <> 0%R) \/ (eb e = m /\ val rs (ea e) <> 0%R) -> val rs' m <> 0%R).
    Proof.
      intros Hm He Hg. rewrite Forall_forall in HE. pose proof (HE e He) as He'. destruct (entry_cases m e rs He' (proj1 Hg)) as (rs' & E & C). exists rs'. split; [exact E|].
      destruct He' as (B1 & B2 & B3). pose proof (fit_of e He) as FT. destruct C as [(-> & C1 & C2)|[(C1 & C2 & C3)|(C1 & C2 & C3)]].
      - split; [exact Hg|]. split; [intros j _ K; exact K|]. intros Hne [[K1 K2]|[K1 K2]]; exfalso; [apply C1; auto|]. apply C2. split; [congruence|auto].
      - destruct (proj2 (proj2 Hg) (eb e) B2) as [K|K]; [contradiction|]. rewrite K, FT, C1 in C3. replace (et e * phi m * (1 / et e))%R with (phi m) in C3 by (field; lra).
        destruct (upd_good rs m rs' Hm Hg C3) as (U1 & U2 & U3). auto.
      - destruct (proj2 (proj2 Hg) (ea e) B1) as [K|K]; [contradiction|]. rewrite K in C3. rewrite C1 in FT. replace (phi (ea e) * et e)%R with (phi m) in C3 by (rewrite FT; ring).
        destruct (upd_good rs m rs' Hm Hg C3) as (U1 & U2 & U3). auto.
    Qed.
    Lemma kept_trans a b c : kept a b -> kept b c -> kept a c.
    Proof. intros H1 H2 m Hm K. apply H2; auto. Qed.
    Lemma row_good m l rs : 1 <= m <= k -> Forall (fun q => exists e, In e es /\ ein k e /\ q = zedge e) l -> good rs ->
      exists rs', rfold (doi_entry (Z.of_nat m)) l (xv rs) = Ok (xv rs' : list XR) /\ good rs' /\ kept rs rs'.
    Proof.
      intros Hm Hl Hg. apply (rfold_inv (doi_entry (Z.of_nat m)) (fun r => good r /\ kept rs r) (fun q => exists e, In e es /\ ein k e /\ q = zedge e)); [|exact Hl|split; [exact Hg|intros j _ K; exact K]].
      intros r q [G1 G2] (e & He & _ & ->). destruct (entry_good m e r Hm He G1) as (r' & E & A1 & A2 & _). exists r'. split; [exact E|]. split; [exact A1|eapply kept_trans; eauto].
    Qed.
    (** A row reaches the objective if one of its neighbours has a direction. *)
    Lemma row_reaches m e rs rs' : 1 <= m <= k -> In e es -> good rs -> ea e <> eb e ->
      (ea e = m /\ val rs (eb e) <> 0%R) \/ (eb e = m /\ val rs (ea e) <> 0%R) -> rfold (doi_entry (Z.of_nat m)) ps (xv rs) = Ok (xv rs' : list XR) -> val rs' m <> 0%R.
    Proof.
      intros Hm He Hg Hne Hn E. assert (Hq : In (zedge e) ps) by (apply in_map; exact He). apply in_split in Hq as (l1 & l2 & Eq).
      pose proof ps_forall as PF. rewrite Eq in PF. apply Forall_app in PF as [PF1 PF2]. inversion PF2 as [|? ? _ PF3]; subst.
      rewrite Eq in E. rewrite rfold_split in E. destruct (row_good m l1 rs Hm PF1 Hg) as (r1 & E1 & G1 & K1). rewrite E1 in E. cbn [rbind] in E.
      destruct (entry_good m e r1 Hm He G1) as (r2 & E2 & G2 & K2 & A). rewrite E2 in E. cbn [rbind] in E.
      destruct (row_good m l2 r2 Hm PF3 G2) as (r3 & E3 & G3 & K3). rewrite E3 in E. injection E as E. apply xv_inj in E. subst r3.
      apply K3; [exact Hm|]. apply A; [exact Hne|]. rewrite Forall_forall in HE. destruct (HE e He) as (B1 & B2 & _).
      destruct Hn as [[N1 N2]|[N1 N2]]; [left|right]; (split; [exact N1|]); apply K1; assumption.
    Qed.
    Lemma pass_good ms rs : Forall (fun m => exists i, m = Z.of_nat i /\ 1 <= i <= k) ms -> good rs ->
      exists rs', doi_pass ms ps (xv rs) = Ok (xv rs' : list XR) /\ good rs' /\ kept rs rs'.
    Proof.
      intros Hm Hg. unfold doi_pass.
      apply (rfold_inv (fun ds m => rfold (doi_entry m) ps ds) (fun r => good r /\ kept rs r) (fun m => exists i, m = Z.of_nat i /\ 1 <= i <= k)); [|exact Hm|split; [exact Hg|intros j _ K; exact K]].
      intros r m [G1 G2] (i & -> & Hi). destruct (row_good i ps r Hi ps_forall G1) as (r' & E & A1 & A2). exists r'. split; [exact E|]. split; [exact A1|eapply kept_trans; eauto].
    Qed.
    Lemma pass_reaches ms m e rs rs' : Forall (fun m => exists i, m = Z.of_nat i /\ 1 <= i <= k) ms -> In (Z.of_nat m) ms -> 1 <= m <= k -> In e es -> good rs -> ea e <> eb e ->
      (ea e = m /\ val rs (eb e) <> 0%R) \/ (eb e = m /\ val rs (ea e) <> 0%R) -> doi_pass ms ps (xv rs) = Ok (xv rs' : list XR) -> val rs' m <> 0%R.
    Proof.
      intros Hms Hin Hm He Hg Hne Hn E. apply in_split in Hin as (l1 & l2 & ->). apply Forall_app in Hms as [M1 M2]. inversion M2 as [|? ? _ M3]; subst.
      unfold doi_pass in E. rewrite rfold_split in E. destruct (pass_good l1 rs M1 Hg) as (r1 & E1 & G1 & K1). unfold doi_pass in E1. rewrite E1 in E. cbn [rbind] in E.
      destruct (row_good m ps r1 Hm ps_forall G1) as (r2 & E2 & G2 & K2). rewrite E2 in E. cbn [rbind] in E.
      destruct (pass_good l2 r2 M3 G2) as (r3 & E3 & G3 & K3). unfold doi_pass in E3. rewrite E3 in E. injection E as E. apply xv_inj in E. subst r3.
      apply K3; [exact Hm|]. apply (row_reaches m e r1 r2 Hm He G1 Hne); [|exact E2]. rewrite Forall_forall in HE. destruct (HE e He) as (B1 & B2 & _).
      destruct Hn as [[N1 N2]|[N1 N2]]; [left|right]; (split; [exact N1|]); apply K1; assumption.
    Qed.

    (** The objectives without a direction. *)
    Definition zeros (rs : list R) : list nat := filter (fun m => if Req_EM_T (val rs m) 0 then true else false) (seq 1 k).
    Lemma zeros_in rs m : In m (zeros rs) <-> 1 <= m <= k /\ val rs m = 0%R.
    Proof. unfold zeros. rewrite filter_In, in_seq. destruct (Req_EM_T (val rs m) 0); split; intros [H1 H2]; try discriminate; split; auto; try lia; contradiction. Qed.
    Lemma exists_zero rs : length rs = k -> (existsb (fun d => neqb d (nofZ 0)) (xv rs : list XR) = true <-> zeros rs <> []).
    Proof.
      intros Hl. rewrite existsb_exists. split.
      - intros (d & Hd & E). unfold xv in Hd. apply in_map_iff in Hd as (r & <- & Hr). apply eqb0 in E. subst r. apply In_nth_error in Hr as (i & Hi).
        assert (Hik : i < k) by (rewrite <- Hl; apply nth_error_Some; congruence). intros K. assert (In (S i) (zeros rs)); [|rewrite K in *; contradiction].
        apply zeros_in. split; [lia|]. unfold val. cbn. rewrite Nat.sub_0_r. apply nth_error_nth, Hi.
      - intros Hz. destruct (zeros rs) as [|m l] eqn:E; [congruence|]. assert (Hm : In m (zeros rs)) by (rewrite E; left; reflexivity). apply zeros_in in Hm as [Hm Hv].
        exists (Fin (val rs m) : XR). split; [|apply eqb0; exact Hv]. unfold xv. apply in_map. unfold val. apply nth_In. lia.
    Qed.
    Lemma zeros_drop rs rs' m : kept rs rs' -> In m (zeros rs) -> val rs' m <> 0%R -> length (zeros rs') < length (zeros rs).
    Proof.
      intros HKt Hm Hn. apply zeros_in in Hm as [Hm Hv].
      assert (Hx : incl (zeros rs') (zeros rs)).
      { intros x Hx. apply zeros_in in Hx as [Hx Hxv]. apply zeros_in. split; [exact Hx|]. destruct (Req_EM_T (val rs x) 0) as [K|K]; [exact K|]. exfalso. exact (HKt x Hx K Hxv). }
      assert (Hnd : NoDup (zeros rs')) by (apply NoDup_filter, seq_NoDup). assert (Hnd2 : NoDup (zeros rs)) by (apply NoDup_filter, seq_NoDup).
      assert (Hm' : ~ In m (zeros rs')) by (intros K; apply zeros_in in K as [_ K]; contradiction).
      assert (B : length (m :: zeros rs') <= length (zeros rs)); [|exact B].
      apply NoDup_incl_length; [constructor; assumption|]. intros x [<-|Hxx]; [apply zeros_in; auto|apply Hx, Hxx].
    Qed.
    Context (HCn : forall i, 1 <= i <= k -> chain es 1 i).
    Lemma loop_good fuel ms rs : Forall (fun m => exists i, m = Z.of_nat i /\ 1 <= i <= k) ms -> (forall m, In m (zeros rs) -> In (Z.of_nat m) ms) -> good rs -> length (zeros rs) <= fuel ->
      exists rs', doi_loop fuel ms ps (xv rs) = Ok (xv rs' : list XR) /\ good rs' /\ zeros rs' = [].
    Proof.
      intros Hms. revert rs. induction fuel as [|fuel IH]; intros rs Hz Hg Hf.
      - assert (E : zeros rs = []) by (destruct (zeros rs); [reflexivity|cbn in Hf; lia]). cbn [doi_loop].
        destruct (existsb (fun d => neqb d (nofZ 0)) (xv rs)) eqn:Ex; [apply exists_zero in Ex; [contradiction|apply Hg]|]. exists rs. auto.
      - cbn [doi_loop]. destruct (existsb (fun d => neqb d (nofZ 0)) (xv rs)) eqn:Ex.
        + apply exists_zero in Ex; [|apply Hg]. destruct (zeros rs) as [|i l] eqn:Ez; [contradiction|]. rewrite <- Ez in *. assert (Hi : In i (zeros rs)) by (rewrite Ez; left; reflexivity).
          apply zeros_in in Hi as [Hi Hv].
          (* a neighbour with a direction *)
          set (S := filter (fun m => if Req_EM_T (val rs m) 0 then false else true) (seq 1 k)).
          assert (HS : forall m, In m S <-> 1 <= m <= k /\ val rs m <> 0%R).
          { intros m. unfold S. rewrite filter_In, in_seq. destruct (Req_EM_T (val rs m) 0); split; intros [H1 H2]; try discriminate; split; auto; try lia; contradiction. }
          destruct (crossing es S i) as (e & He & Hcr).
          { apply HS. split; [lia|apply Hg]. } { intros K. apply HS in K as [_ K]. contradiction. } { apply HCn, Hi. }
          assert (He' : ein k e) by (rewrite Forall_forall in HE; apply HE, He). destruct He' as (B1 & B2 & B3).
          destruct (pass_good ms rs Hms Hg) as (r1 & E1 & G1 & K1). rewrite E1. cbn [rbind].
          assert (Hm : exists m, In m (zeros rs) /\ val r1 m <> 0%R).
          { destruct Hcr as [[C1 C2]|[C1 C2]].
            - exists (eb e). assert (Hzb : In (eb e) (zeros rs)) by (apply zeros_in; split; [exact B2|]; destruct (Req_EM_T (val rs (eb e)) 0) as [K|K]; [exact K|exfalso; apply C2, HS; auto]).
              split; [exact Hzb|]. apply (pass_reaches ms (eb e) e rs r1 Hms (Hz _ Hzb) B2 He Hg); [intros K; rewrite <- K in C2; contradiction| |exact E1]. right. split; [reflexivity|]. apply HS, C1.
            - exists (ea e). assert (Hzb : In (ea e) (zeros rs)) by (apply zeros_in; split; [exact B1|]; destruct (Req_EM_T (val rs (ea e)) 0) as [K|K]; [exact K|exfalso; apply C2, HS; auto]).
              split; [exact Hzb|]. apply (pass_reaches ms (ea e) e rs r1 Hms (Hz _ Hzb) B1 He Hg); [intros K; rewrite K in C2; contradiction| |exact E1]. left. split; [reflexivity|]. apply HS, C1. }
          destruct Hm as (m & Hm1 & Hm2). pose proof (zeros_drop rs r1 m K1 Hm1 Hm2) as HD. apply IH; [|exact G1|lia].
          intros x Hx. apply Hz. apply zeros_in in Hx as [Hx Hxv]. apply zeros_in. split; [exact Hx|]. destruct (Req_EM_T (val rs x) 0) as [K|K]; [exact K|exfalso; exact (K1 x Hx K Hxv)].
        + exists rs. split; [reflexivity|]. split; [exact Hg|]. destruct (zeros rs) eqn:Ez; [reflexivity|]. exfalso.
          assert (existsb (fun d => neqb d (nofZ 0)) (xv rs : list XR) = true); [|congruence]. apply exists_zero; [apply Hg|]. rewrite Ez. discriminate.
    Qed.
  End Connected.

  (** The objectives that have no direction after the first pass. *)
  Lemma missing_in (rs : list R) m : length rs = k -> (In m (doi_missing (xv rs : list XR)) <-> exists i, m = Z.of_nat i /\ 1 <= i <= k /\ val rs i = 0%R).
  Proof.
    intros Hl. unfold doi_missing. rewrite in_map_iff. split.
    - intros (i & <- & Hi). apply argwhere_spec in Hi. rewrite nth_error_map in Hi. unfold xv in Hi. rewrite nth_error_map in Hi. destruct (nth_error rs i) as [r|] eqn:E; [|discriminate]. cbn [option_map] in Hi. injection Hi as Hi.
      apply eqb0 in Hi. exists (S i). split; [reflexivity|]. assert (i < length rs) by (apply nth_error_Some; congruence). split; [lia|]. unfold val. cbn. rewrite Nat.sub_0_r. rewrite (nth_error_nth _ _ _ E). exact Hi.
    - intros (i & -> & Hi & Hv). exists (i - 1). split; [f_equal; lia|]. apply argwhere_spec. rewrite nth_error_map. unfold xv. rewrite nth_error_map. unfold val in Hv.
      destruct (nth_error rs (i - 1)) as [r|] eqn:E; [|apply nth_error_None in E; lia]. cbn [option_map]. f_equal. apply eqb0. rewrite (nth_error_nth _ _ _ E) in Hv. exact Hv.
  Qed.

  (** *** Not connected: an objective not linked to the first never gets a direction *)
  Section Open.
    Context (i0 : nat) (Hi0 : 1 <= i0 <= k) (Hno : ~ chain es 1 i0).
    Definition stuck (rs : list R) : Prop := length rs = k /\ forall m, 1 <= m <= k -> val rs m <> 0%R -> chain es 1 m.
    Lemma upd_stuck rs m d rs' : stuck rs -> chain es 1 m -> upd rs m d rs' -> stuck rs'.
    Proof.
      intros (S1 & S2) HC (U1 & U2 & U3). split; [lia|]. intros j Hj HN. destruct (Nat.eq_dec j m) as [->|Hne]; [exact HC|]. apply S2; [exact Hj|]. rewrite <- U3 by lia. exact HN.
    Qed.
    Lemma first_stuck e rs : In e es -> stuck rs -> exists rs', doi_first (xv rs) (zedge e) = Ok (xv rs' : list XR) /\ stuck rs'.
    Proof.
      intros He Hs. rewrite Forall_forall in HE. destruct (first_cases e rs (HE e He) (proj1 Hs)) as (rs' & E & C). exists rs'. split; [exact E|].
      destruct C as [(-> & _)|[(C1 & C2)|(C0 & C1 & C2)]]; [exact Hs|..]; (eapply upd_stuck; [exact Hs| |exact C2]).
      - eapply chain_step; [apply chain_refl|exact He|]. left. auto.
      - eapply chain_step; [apply chain_refl|exact He|]. right. auto.
    Qed.
    Lemma entry_stuck m e rs : In e es -> stuck rs -> exists rs', doi_entry (Z.of_nat m) (xv rs) (zedge e) = Ok (xv rs' : list XR) /\ stuck rs'.
    Proof.
      intros He Hs. rewrite Forall_forall in HE. pose proof (HE e He) as (B1 & B2 & _). destruct (entry_cases m e rs (HE e He) (proj1 Hs)) as (rs' & E & C). exists rs'. split; [exact E|].
      destruct C as [(-> & _)|[(C1 & C2 & C3)|(C1 & C2 & C3)]]; [exact Hs|..]; (eapply upd_stuck; [exact Hs| |exact C3]).
      - eapply chain_step; [apply (proj2 Hs (eb e) B2 C2)|exact He|]. right. auto.
      - eapply chain_step; [apply (proj2 Hs (ea e) B1 C2)|exact He|]. left. auto.
    Qed.
    Lemma pass_stuck ms rs : Forall (fun m => exists i, m = Z.of_nat i /\ 1 <= i <= k) ms -> stuck rs -> exists rs', doi_pass ms ps (xv rs) = Ok (xv rs' : list XR) /\ stuck rs'.
    Proof.
      intros Hm Hs. unfold doi_pass. apply (rfold_inv _ stuck (fun m => exists i, m = Z.of_nat i /\ 1 <= i <= k)); [|exact Hm|exact Hs].
      intros r m Hr (i & -> & _). apply (rfold_inv _ stuck (fun q => exists e, In e es /\ ein k e /\ q = zedge e)); [|exact ps_forall|exact Hr].
      intros r' q Hr' (e & He & _ & ->). apply entry_stuck; assumption.
    Qed.
    Lemma loop_stuck fuel ms rs : Forall (fun m => exists i, m = Z.of_nat i /\ 1 <= i <= k) ms -> stuck rs -> doi_loop fuel ms ps (xv rs : list XR) = Raise Diverges.
    Proof.
      intros Hm. revert rs. induction fuel as [|fuel IH]; intros rs Hs; cbn [doi_loop];
        (assert (Ex : existsb (fun d => neqb d (nofZ 0)) (xv rs : list XR) = true);
         [apply exists_zero; [apply Hs|]; intros K; assert (Hz : In i0 (zeros rs)); [apply zeros_in; split; [exact Hi0|]; destruct (Req_EM_T (val rs i0) 0) as [G|G]; [exact G|exfalso; apply Hno, (proj2 Hs); assumption]|rewrite K in Hz; exact Hz]|]); rewrite Ex.
      - reflexivity.
      - destruct (pass_stuck ms rs Hm Hs) as (r1 & E1 & G1). rewrite E1. cbn [rbind]. apply IH, G1.
    Qed.
  End Open.

  (** ** calculate_doi *)
  Definition doi_start : list R := 1%R :: repeat 0%R (k - 1).
  Lemma start_ok : set_ (repeat (nofZ 0) k : list XR) 0 (nofZ 1) = Ok (xv doi_start) /\ length doi_start = k /\ val doi_start 1 = 1%R /\ forall m, 2 <= m -> val doi_start m = 0%R.
  Proof.
    unfold doi_start. split; [|split; [cbn; rewrite repeat_length; lia|split; [reflexivity|]]].
    - destruct k as [|k']; [lia|]. cbn. rewrite Nat.sub_0_r. unfold xv. f_equal. f_equal. clear. induction k' as [|k2 IH]; [reflexivity|]. cbn. f_equal. apply IH.
    - intros m Hm. unfold val. destruct m as [|[|m]]; [lia|lia|]. cbn [Nat.sub nth]. apply nth_repeat.
  Qed.
  Lemma doi_run_ok l fuel : rseq (map doi_pair l) = Ok ps -> length es = k - 1 -> (forall i, 1 <= i <= k -> chain es 1 i) -> k <= fuel ->
    exists rs, nt2_doi fuel k l = Ok (xv rs : list XR) /\ length rs = k /\ val rs 1 = 1%R /\ (forall m, 1 <= m <= k -> (0 < val rs m)%R) /\
      forall e, In e es -> val rs (eb e) = (et e * val rs (ea e))%R.
  Proof.
    intros El HL HCn Hf. destruct (potential k es HE HK HL HCn) as (phi & P1 & P2 & P3). unfold nt2_doi. rewrite El. cbn [rbind].
    destruct start_ok as (S1 & S2 & S3 & S4). rewrite S1. cbn [rbind].
    assert (G0 : good phi doi_start).
    { split; [exact S2|]. split; [rewrite S3; lra|]. intros m Hm. destruct (Nat.eq_dec m 1) as [->|Hne]; [right; rewrite S3, P1; reflexivity|left; apply S4; lia]. }
    destruct (rfold_inv doi_first (good phi) (fun q => exists e, In e es /\ ein k e /\ q = zedge e)) with (l := ps) (rs := doi_start) as (r1 & E1 & G1); [|exact ps_forall|exact G0|].
    { intros r q Hr (e & He & _ & ->). apply (first_good phi P1 P2 P3); assumption. }
    rewrite E1. cbn [rbind].
    destruct (loop_good phi P2 P3 HCn fuel (doi_missing (xv r1)) r1) as (rs & E2 & G2 & Hz).
    - apply Forall_forall. intros m Hm. apply (missing_in r1 m (proj1 G1)) in Hm as (i & -> & Hi & _). eauto.
    - intros m Hm. apply (missing_in r1 _ (proj1 G1)). apply zeros_in in Hm as [Hm Hv]. exists m. auto.
    - exact G1.
    - unfold zeros. etransitivity; [apply filter_len_le0|]. rewrite seq_length. exact Hf.
    - rewrite E2. exists rs. split; [reflexivity|]. destruct G2 as (L2 & _ & V2). split; [exact L2|].
      assert (V : forall m, 1 <= m <= k -> val rs m = phi m).
      { intros m Hm. destruct (V2 m Hm) as [K|K]; [|exact K]. exfalso. assert (In m (zeros rs)) by (apply zeros_in; auto). rewrite Hz in *. contradiction. }
      split; [rewrite V by lia; exact P1|]. split; [intros m Hm; rewrite V by exact Hm; apply P2, Hm|].
      intros e He. rewrite Forall_forall in HE. destruct (HE e He) as (B1 & B2 & _). rewrite !V by assumption. rewrite Forall_forall in P3. apply P3, He.
  Qed.
  Lemma doi_run_diverges l fuel i0 : rseq (map doi_pair l) = Ok ps -> 1 <= i0 <= k -> ~ chain es 1 i0 -> nt2_doi fuel k l = Raise (A:=list XR) Diverges.
  Proof.
    intros El Hi0 Hno. unfold nt2_doi. rewrite El. cbn [rbind]. destruct start_ok as (S1 & S2 & S3 & S4). rewrite S1. cbn [rbind].
    assert (G0 : stuck doi_start).
    { split; [exact S2|]. intros m Hm Hn. destruct (Nat.eq_dec m 1) as [->|Hne]; [apply chain_refl|]. exfalso. apply Hn, S4. lia. }
    destruct (rfold_inv doi_first stuck (fun q => exists e, In e es /\ ein k e /\ q = zedge e)) with (l := ps) (rs := doi_start) as (r1 & E1 & G1); [|exact ps_forall|exact G0|].
    { intros r q Hr (e & He & _ & ->). eapply first_stuck; eauto. }
    rewrite E1. cbn [rbind]. apply (loop_stuck i0 Hi0 Hno); [|exact G1].
    apply Forall_forall. intros m Hm. apply (missing_in r1 m (proj1 G1)) in Hm as (i & -> & Hi & _). eauto.
  Qed.
End Algo.

(** ** Validated pairs as edges *)
Section Entries.
  Context (k : nat) (l : list (list (pyval XR) * pyval XR)) (ms : list (list nat)).
  Context (HV : rseq (map (nt2_pair k) l) = Ok ms) (H2 : Forall (fun e => length (fst e) = 2) l).
  Context (Hfin : forall e, In e l -> exists r, ratio_val (snd e) = Some (Fin r : XR)).
  Definition same_edge (x : list (pyval XR) * pyval XR) (e : edge) : Prop :=
    exists oi oj, fst x = [oi; oj] /\ int_is oi (ea e) /\ int_is oj (eb e) /\ ratio_val (snd x) = Some (Fin (et e) : XR).
  Lemma entries_edges : exists es, rseq (map doi_pair l) = Ok (map zedge es) /\ Forall (ein k) es /\ Forall2 same_edge l es.
  Proof.
    destruct (pairs_in _ _ _ HV H2) as (ps & E & _ & F). rewrite E. clear E HV H2.
    assert (Hf : Forall (fun e => exists r, ratio_val (snd e) = Some (Fin r : XR)) l) by (apply Forall_forall; exact Hfin). clear Hfin.
    induction F as [|x q l ps (i & j & r & -> & Bi & Bj & Er & Hr & oi & oj & Ex & I1 & I2) F IH]; [exists []; repeat split; constructor|].
    inversion Hf as [|? ? (r' & Er') Hf']; subst. rewrite Er in Er'. injection Er' as ->. destruct (IH Hf') as (es & E & F1 & F2). injection E as ->.
    exists ((i, j, r') :: es). split; [reflexivity|]. split; [constructor; [|exact F1]|constructor; [|exact F2]].
    - repeat split; cbn; try lia. apply xleb_fin_false in Hr. exact Hr.
    - exists oi, oj. auto.
  Qed.
  Lemma linked_chain es : Forall2 same_edge l es -> forall i j, linked l i j <-> chain es i j.
  Proof.
    intros F i j. split; intros H.
    - induction H as [i|i j m oi oj T H IH Hin Hd]; [apply chain_refl|]. apply In_nth_error in Hin as (n & Hn). destruct (Forall2_nth_l _ _ _ _ _ F Hn) as (e & He & (oi' & oj' & Ex & I1 & I2 & _)).
      cbn in Ex. injection Ex as <- <-. apply nth_error_In in He. eapply chain_step; [exact IH|exact He|]. unfold int_is in *.
      destruct Hd as [[D1 D2]|[D1 D2]]; [left|right]; split; apply Nat2Z.inj; congruence.
    - induction H as [i|i j m e H IH Hin Hd]; [apply linked_refl|]. apply In_nth_error in Hin as (n & Hn). destruct (Forall2_nth_r _ _ _ _ _ F Hn) as ([os T] & He & (oi & oj & Ex & I1 & I2 & _)).
      cbn in Ex. subst os. apply nth_error_In in He. eapply linked_step; [exact IH|exact He|]. destruct Hd as [[<- <-]|[<- <-]]; auto.
  Qed.
End Entries.
