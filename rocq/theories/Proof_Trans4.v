(* 1d transitions: every index, matching messages, agreed reductions *)
From Coq Require Import ZArith List Bool Lia Permutation Sorted ZifyBool ZifyNat.
From Verif Require Import Base ListFacts Model_Space Spec_Space Model_RangeList Spec_RangeList Proof_RangeList Proof_RangeList4 Proof_RangeList5
  Model_Partitioner Spec_Partitioner Proof_Partitioner Proof_Partitioner2 Model_Group Proof_Group Proof_Group3 Model_Transition Spec_Transition
  Proof_Trans1 Proof_Trans2 Proof_Trans3.
Import ListNotations.
Open Scope Z_scope.

Lemma calc_unfold qb sp gsize me fl tl f t red : Good1d sp gsize fl tl -> Sees sp gsize me fl tl f t ->
  calc_transition qb sp (Some f) (Some t) DF_Preserve red =
  do o <- calcAddReductions qb false gsize me red fl tl tops_empty;
  Ok (Some (mkTrans sp (pa_group (np_p f)) DF_Preserve red o)).
Proof.
  intros G S. destruct S as [se_f0 se_t0 se_g0 se_size0 se_me0 se_in0 se_fl0 se_tl0]. unfold calc_transition. rewrite <- se_g0, Z.eqb_refl. cbn [cassert].
  unfold do_calc_transition, trans_group. rewrite se_f0, se_t0. cbn [cassert]. rewrite <- se_g0, Z.eqb_refl. cbn [cassert obind].
  rewrite se_me0, se_size0. assert (E : me =? -1 = false) by lia. rewrite E. rewrite (gd_dims _ _ _ _ G). cbn [Nat.eqb].
  rewrite se_fl0, se_tl0. reflexivity.
Qed.

Section T.
  Variables (sp : space) (gsize : Z) (fl tl : rlist).
  Hypothesis G : Good1d sp gsize fl tl.
  Let L (inp : bool) := if inp then rl_trs fl else rl_trs tl.
  Let own inp x := owners gsize (L inp) x.
  Variable sl : list border.
  Hypothesis P : Permutation (allb (rl_trs fl) (rl_trs tl)) sl.
  Hypothesis S : StronglySorted ble sl.
  Let SG := segs sl.
  Variable me : Z.
  Variable red : redop.
  Hypothesis Hme : 0 <= me < gsize.

  Notation sgl := (sg_local (rl_trs fl) (rl_trs tl) gsize me).
  Notation sgs := (sg_send (rl_trs fl) (rl_trs tl) gsize me).
  Notation sgr := (sg_recv (rl_trs fl) (rl_trs tl) gsize me).
  Notation sgd := (sg_red (rl_trs fl) (rl_trs tl) gsize me red).

  Lemma owns_f t i : Owns fl t i <-> In t (own true (i0 i)).
  Proof. exact (g_own_owns sp gsize fl tl G true t i). Qed.
  Lemma owns_t t i : Owns tl t i <-> In t (own false (i0 i)).
  Proof. exact (g_own_owns sp gsize fl tl G false t i). Qed.
  Lemma only_f s i : OnlyOwner fl s i <-> own true (i0 i) = [s].
  Proof. exact (g_only sp gsize fl tl G true s i). Qed.

  (* every index is in one segment or nobody owns it *)
  Lemma seg_cases i : (exists s, In s SG /\ fst s <= i0 i < snd s /\ (forall inp, own inp (fst s) = own inp (i0 i))) \/
    ((forall s, In s SG -> ~ (fst s <= i0 i < snd s)) /\ (forall inp, own inp (i0 i) = [])).
  Proof.
    destruct (existsb (fun s => (fst s <=? i0 i) && (i0 i <? snd s)) SG) eqn:E.
    - left. apply existsb_exists in E. destruct E as [s [E1 E2]]. exists s. split; auto. split; [lia|].
      intros inp. apply (sg_own gsize fl tl sl P S s); auto. lia.
    - right. assert (K : forall s, In s SG -> ~ (fst s <= i0 i < snd s)).
      { intros s Hs Hx. assert (X : existsb (fun s => (fst s <=? i0 i) && (i0 i <? snd s)) SG = true); [|congruence].
        apply existsb_exists. exists s. split; auto. lia. }
      split; auto. intros inp. destruct (own inp (i0 i)) as [|t g] eqn:Eo; auto. exfalso.
      assert (Ht : In t (own inp (i0 i))) by (rewrite Eo; left; auto). apply owners_in in Ht.
      destruct (sg_cover fl tl sl P S inp t (i0 i)) as [s [Q1 Q2]]; [tauto|]. exact (K s Q1 Q2).
  Qed.

  Lemma inb_hit i b : inb i b = hit (i0 i) b.
  Proof. reflexivity. Qed.

  Lemma sgl_box s e : In e (sgl s) -> e = box1 (fst s) (snd s).
  Proof.
    unfold sg_local. destruct (owners gsize _ (fst s)) as [|j [|? ?]]; try (intros []; fail). destruct (_ && _); [|intros []]. intros [<-|[]]; auto.
  Qed.
  Lemma sgs_box s e : In e (sgs s) -> fst e = box1 (fst s) (snd s).
  Proof.
    unfold sg_send. destruct (owners gsize _ (fst s)) as [|j [|? ?]]; try (intros []; fail). destruct (j =? me); [|intros []].
    intros H. apply in_map_iff in H. destruct H as [t [<- _]]. auto.
  Qed.
  Lemma sgr_box s e : In e (sgr s) -> fst e = box1 (fst s) (snd s).
  Proof.
    unfold sg_recv. destruct (owners gsize _ (fst s)) as [|j [|? ?]]; try (intros []; fail). destruct (_ && _); [|intros []]. intros [<-|[]]; auto.
  Qed.
  Lemma sgd_box s e : In e (sgd s) -> e = (box1 (fst s) (snd s), red, Some (own true (fst s)), Some (own false (fst s))) /\
    (forall i, own true (fst s) <> [i]) /\ (In me (own true (fst s)) \/ In me (own false (fst s))).
  Proof.
    unfold sg_red.
    change (owners gsize (rl_trs fl) (fst s)) with (own true (fst s)).
    change (owners gsize (rl_trs tl) (fst s)) with (own false (fst s)).
    destruct (own true (fst s)) as [|j [|? ?]] eqn:E; try (intros []; fail);
    (destruct (memb me _ || memb me _) eqn:M; [|intros []]); intros [<-|[]]; (split; [auto|]); (split; [intros; discriminate|]);
    apply orb_true_iff in M; destruct M as [M|M]; apply memb_in in M; auto.
  Qed.

  Lemma trans_at o : OpsInv (rl_trs fl) (rl_trs tl) gsize me red SG o -> forall i, TransAt gsize me red fl tl o i.
  Proof.
    intros [V0 V1 V2 V3 V4 V5 V6 V7 V8] i.
    pose proof (sg_sorted sl S) as Sso. pose proof (fun s Hs => sg_lt sl S s Hs) as Slt. fold SG in Sso, Slt.
    assert (EL : nlocal o i = length (filter (fun e => hit (i0 i) e && true) (flat_map sgl SG))).
    { unfold nlocal. rewrite (filter_map_len lo_box (inb i)), V1. f_equal. apply filter_ext. intros e. rewrite andb_true_r. apply inb_hit. }
    assert (ES : forall t, nsend o t i = length (filter (fun e => hit (i0 i) (fst e) && (snd e =? t)) (flat_map sgs SG))).
    { intros t. unfold nsend. rewrite (filter_map_len (fun x => (sd_box x, sd_to x)) (fun e => inb i (fst e) && (snd e =? t))), V2. auto. }
    assert (ER : forall t, nrecv o t i = length (filter (fun e => hit (i0 i) (fst e) && (snd e =? t)) (flat_map sgr SG))).
    { intros t. unfold nrecv. rewrite (filter_map_len (fun x => (rc_box x, rc_from x)) (fun e => inb i (fst e) && (snd e =? t))), V3. auto. }
    assert (ED : nred o i = length (filter (fun e => hit (i0 i) (fst (fst (fst e))) && true) (flat_map sgd SG))).
    { unfold nred. rewrite <- V4. rewrite <- (filter_map_len (res_red gsize (tp_groups o)) (fun e => hit (i0 i) (fst (fst (fst e))) && true)).
      f_equal. apply filter_ext. intros e. rewrite andb_true_r. reflexivity. }
    pose proof (flat_hit (fun e => e) (fun _ => true) sgl (i0 i) sgl_box SG Sso Slt) as FL.
    pose proof (fun t => flat_hit fst (fun e => snd e =? t) sgs (i0 i) sgs_box SG Sso Slt) as FS.
    pose proof (fun t => flat_hit fst (fun e => snd e =? t) sgr (i0 i) sgr_box SG Sso Slt) as FR.
    pose proof (flat_hit (fun e => fst (fst (fst e))) (fun _ => true) sgd (i0 i) (fun s e He => f_equal (fun e => fst (fst (fst e))) (proj1 (sgd_box s e He))) SG Sso Slt) as FD.
    assert (Mem : forall t g, memb t g = false -> ~ In t g) by (intros t g H Hin; apply memb_in in Hin; congruence).
    constructor.
    - rewrite EL. unfold OneIf. rewrite only_f, owns_t. destruct (seg_cases i) as [[s [Hs [Hx Ho]]]|[Hn Ho]].
      + rewrite (proj1 FL s Hs Hx). unfold sg_local.
        change (owners gsize (rl_trs fl) (fst s)) with (own true (fst s)).
        change (owners gsize (rl_trs tl) (fst s)) with (own false (fst s)). rewrite !Ho.
        destruct (own true (i0 i)) as [|j [|? ?]]; try (split; simpl; auto; intros [X _]; discriminate).
        destruct ((j =? me) && memb me (own false (i0 i))) eqn:Q; simpl.
        * split; auto. intros X. exfalso. apply X. apply andb_prop in Q. destruct Q as [Q1 Q2]. apply memb_in in Q2. split; auto. f_equal. lia.
        * split; auto. intros [X Y]. injection X as ->. apply memb_in in Y. rewrite Y, Z.eqb_refl in Q. discriminate.
      + rewrite (proj2 FL Hn), Ho. split; auto. intros [X _]. discriminate.
    - intros t. rewrite ES. unfold OneIf. rewrite only_f, owns_t. destruct (seg_cases i) as [[s [Hs [Hx Ho]]]|[Hn Ho]].
      + rewrite (proj1 (FS t) s Hs Hx). unfold sg_send.
        change (owners gsize (rl_trs fl) (fst s)) with (own true (fst s)).
        change (owners gsize (rl_trs tl) (fst s)) with (own false (fst s)). rewrite !Ho.
        destruct (own true (i0 i)) as [|j [|? ?]]; try (split; simpl; auto; intros [X _]; discriminate).
        destruct (j =? me) eqn:Q; [|split; simpl; auto; intros [X _]; injection X as ->; lia].
        rewrite <- (filter_map_len (fun t => (box1 (fst s) (snd s), t)) (fun e => snd e =? t)). simpl.
        assert (K : forall g, NoDup g -> OneIf (length (filter (fun a => a =? t) (filter (fun t => negb (t =? me)) g))) (In t g /\ t <> me)).
        { clear. induction g as [|a g IH]; intros ND; [split; simpl; [tauto|auto]|]. inversion ND as [|? ? N1 N2]; subst. specialize (IH N2). destruct IH as [I1 I2].
          simpl. destruct (a =? me) eqn:E1; simpl.
          - split; intros H; [apply I1; intuition lia|apply I2; intuition lia].
          - destruct (a =? t) eqn:E2; simpl.
            + split; intros H; [f_equal; apply I2; assert (a = t) by lia; subst; tauto|exfalso; apply H; split; [left|]; lia].
            + split; intros H; [apply I1; intuition lia|apply I2; intuition lia]. }
        destruct (K (own false (i0 i)) (sset_NoDup _ (owners_sset _ _ _))) as [K1 K2].
        split; intros H; [apply K1; tauto|apply K2; intros X; apply H; split; [f_equal; lia|auto]].
      + rewrite (proj2 (FS t) Hn), Ho. split; auto. intros [X _]. discriminate.
    - intros t. rewrite ER. unfold OneIf. rewrite only_f, owns_t. destruct (seg_cases i) as [[s [Hs [Hx Ho]]]|[Hn Ho]].
      + rewrite (proj1 (FR t) s Hs Hx). unfold sg_recv.
        change (owners gsize (rl_trs fl) (fst s)) with (own true (fst s)).
        change (owners gsize (rl_trs tl) (fst s)) with (own false (fst s)). rewrite !Ho.
        destruct (own true (i0 i)) as [|j [|? ?]]; try (split; simpl; auto; intros [X _]; discriminate).
        destruct (negb (j =? me) && memb me (own false (i0 i))) eqn:Q; simpl.
        * apply andb_prop in Q. destruct Q as [Q1 Q2]. apply memb_in in Q2. destruct (j =? t) eqn:Q3; simpl.
          -- split; auto. intros X. exfalso. apply X. conjs; auto; try lia. f_equal; lia.
          -- split; auto. intros [X _]. injection X as ->. lia.
        * split; auto. intros [X [X2 Y]]. injection X as ->. apply memb_in in Y. rewrite Y in Q. lia.
      + rewrite (proj2 (FR t) Hn), Ho. split; auto. intros [X _]. discriminate.
    - rewrite ED. unfold OneIf. rewrite owns_f, owns_t. destruct (seg_cases i) as [[s [Hs [Hx Ho]]]|[Hn Ho]].
      + rewrite (proj1 FD s Hs Hx). unfold sg_red.
        change (owners gsize (rl_trs fl) (fst s)) with (own true (fst s)).
        change (owners gsize (rl_trs tl) (fst s)) with (own false (fst s)). rewrite !Ho.
        assert (On : forall q, OnlyOwner fl q i <-> own true (i0 i) = [q]) by (intros; apply only_f).
        assert (Q : forall g, In g [own true (i0 i)] -> (match g with [_] => False | _ => True end) ->
           OneIf (length (filter (fun _ : box * redop * option (list Z) * option (list Z) => true)
             (if memb me (own true (i0 i)) || memb me (own false (i0 i)) then
                [(box1 (fst s) (snd s), red, Some (own true (i0 i)), Some (own false (i0 i)))] else [])))
             ((forall s, ~ OnlyOwner fl s i) /\ (In me (own true (i0 i)) \/ In me (own false (i0 i))))).
        { intros g [<-|[]] Hg. destruct (memb me (own true (i0 i)) || memb me (own false (i0 i))) eqn:M; simpl.
          - split; auto. intros X. exfalso. apply X. split.
            + intros q Hq. apply On in Hq. rewrite Hq in Hg. auto.
            + apply orb_true_iff in M. destruct M as [M|M]; apply memb_in in M; auto.
          - split; auto. intros [_ X]. apply orb_false_elim in M. destruct M as [M1 M2]. apply Mem in M1, M2. tauto. }
        destruct (own true (i0 i)) as [|j [|? ?]] eqn:Eo.
        * apply (Q [] (or_introl eq_refl) I).
        * simpl. split; auto. intros [X _]. exfalso. apply (X j). apply On. auto.
        * apply (Q _ (or_introl eq_refl) I).
      + rewrite (proj2 FD Hn). split; auto. rewrite !Ho. simpl. tauto.
    - intros x Hx Hi. assert (K : In (res_red gsize (tp_groups o) x) (flat_map sgd SG)) by (rewrite <- V4; apply in_map; auto).
      apply in_flat_map in K. destruct K as [s [Hs K]]. apply sgd_box in K. destruct K as [K _]. unfold res_red in K. injection K as K1 K2 K3 K4.
      rewrite inb_hit in Hi. unfold hit in Hi. rewrite K1 in Hi. cbn [box1 b_from b_to i0] in Hi.
      assert (Ho : forall inp, own inp (fst s) = own inp (i0 i)) by (intros inp; apply (sg_own gsize fl tl sl P S s); auto; lia).
      split; auto. unfold members. fold (grp gsize (tp_groups o) (rd_in x)) (grp gsize (tp_groups o) (rd_out x)). rewrite K3, K4, !Ho. split.
      + eexists. split; [reflexivity|]. split; [apply owners_sset|]. intros t. rewrite owns_f. reflexivity.
      + eexists. split; [reflexivity|]. split; [apply owners_sset|]. intros t. rewrite owns_t. reflexivity.
  Qed.

  Lemma num_inmap inp b R M : numok (rl_trs fl) (rl_trs tl) me inp b R M -> InMap (if inp then fl else tl) me M b.
  Proof.
    intros [a [A1 [A2 [A3 [A4 [A5 A6]]]]]]. destruct (rl_all sp gsize fl tl G inp) as [F [_ [_ [_ [_ E]]]]].
    assert (H : In (fst a) (rl_trs (if inp then fl else tl))) by (rewrite E; apply (ann_in (rl_trs fl) (rl_trs tl)); auto).
    destruct (frozen_in_range _ _ F H) as [n Hn]. rewrite A2 in Hn. exists n, (fst a). unfold tf, tt in *. auto.
  Qed.

  Lemma cov_own inp t x : In t (own inp x) -> cov (L inp) t x = 1.
  Proof. intros H. apply owners_in in H. pose proof (g_one sp gsize fl tl G inp t x) as Q. change (cov (L inp) t x <= 1) in Q. unfold own in H. lia. Qed.

  Lemma maps_ok o : OpsInv (rl_trs fl) (rl_trs tl) gsize me red SG o -> MapsOk me fl tl o.
  Proof.
    intros [V0 V1 V2 V3 V4 V5 V6 V7 V8]. rewrite Forall_forall in V5, V6, V7, V8.
    pose proof (fun s Hs => sg_lt sl S s Hs) as Slt. fold SG in Slt.
    assert (FL : forall x, In x (tp_local o) -> exists s, In s SG /\ lo_box x = box1 (fst s) (snd s) /\ In me (own true (fst s)) /\ In me (own false (fst s))).
    { intros x Hx. assert (K : In (lo_box x) (flat_map sgl SG)) by (rewrite <- V1; apply in_map; auto).
      apply in_flat_map in K. destruct K as [s [Hs K]]. exists s. split; auto. split; [apply sgl_box; auto|]. unfold sg_local in K.
      change (owners gsize (rl_trs fl) (fst s)) with (own true (fst s)) in K.
      change (owners gsize (rl_trs tl) (fst s)) with (own false (fst s)) in K.
      destruct (own true (fst s)) as [|j [|? ?]]; try (destruct K; fail). destruct ((j =? me) && memb me (own false (fst s))) eqn:Q; [|destruct K].
      apply andb_prop in Q. destruct Q as [Q1 Q2]. apply memb_in in Q2. split; auto. left; lia. }
    assert (FS : forall x, In x (tp_send o) -> exists s, In s SG /\ sd_box x = box1 (fst s) (snd s) /\ In me (own true (fst s))).
    { intros x Hx. assert (K : In (sd_box x, sd_to x) (flat_map sgs SG)) by (rewrite <- V2; apply (in_map (fun x => (sd_box x, sd_to x))); auto).
      apply in_flat_map in K. destruct K as [s [Hs K]]. exists s. split; auto. split; [apply (sgs_box s _ K)|]. unfold sg_send in K.
      change (owners gsize (rl_trs fl) (fst s)) with (own true (fst s)) in K.
      destruct (own true (fst s)) as [|j [|? ?]]; try (destruct K; fail). destruct (j =? me) eqn:Q; [|destruct K]. left; lia. }
    assert (FR : forall x, In x (tp_recv o) -> exists s, In s SG /\ rc_box x = box1 (fst s) (snd s) /\ In me (own false (fst s))).
    { intros x Hx. assert (K : In (rc_box x, rc_from x) (flat_map sgr SG)) by (rewrite <- V3; apply (in_map (fun x => (rc_box x, rc_from x))); auto).
      apply in_flat_map in K. destruct K as [s [Hs K]]. exists s. split; auto. split; [apply (sgr_box s _ K)|]. unfold sg_recv in K.
      change (owners gsize (rl_trs fl) (fst s)) with (own true (fst s)) in K.
      change (owners gsize (rl_trs tl) (fst s)) with (own false (fst s)) in K.
      destruct (own true (fst s)) as [|j [|? ?]]; try (destruct K; fail). destruct (negb (j =? me) && memb me (own false (fst s))) eqn:Q; [|destruct K].
      apply andb_prop in Q. destruct Q as [Q1 Q2]. apply memb_in in Q2. auto. }
    assert (FD : forall x, In x (tp_red o) -> exists s, In s SG /\ rd_box x = box1 (fst s) (snd s)).
    { intros x Hx. assert (K : In (res_red gsize (tp_groups o) x) (flat_map sgd SG)) by (rewrite <- V4; apply in_map; auto).
      apply in_flat_map in K. destruct K as [s [Hs K]]. apply sgd_box in K. destruct K as [K _]. unfold res_red in K. injection K as K1 _ _ _. eauto. }
    constructor.
    - intros x Hx. destruct (FL x Hx) as [s [Hs [E [O1 O2]]]]. destruct (V5 x Hx) as [N1 N2]. unfold numAt in N1, N2. rewrite E in *. cbn [box1 b_from i0] in N1, N2.
      split; [apply (num_inmap true _ _ _ (N1 (cov_own true _ _ O1)))|apply (num_inmap false _ _ _ (N2 (cov_own false _ _ O2)))].
    - intros x Hx. destruct (FS x Hx) as [s [Hs [E O1]]]. pose proof (V6 x Hx) as N1. unfold numAt in N1. rewrite E in *. cbn [box1 b_from i0] in N1.
      apply (num_inmap true _ _ _ (N1 (cov_own true _ _ O1))).
    - intros x Hx. destruct (FR x Hx) as [s [Hs [E O1]]]. pose proof (V7 x Hx) as N1. unfold numAt in N1. rewrite E in *. cbn [box1 b_from i0] in N1.
      apply (num_inmap false _ _ _ (N1 (cov_own false _ _ O1))).
    - intros x i Hx Hi. destruct (FD x Hx) as [s [Hs E]]. destruct (V8 x Hx) as [N1 N2]. unfold numAt in N1, N2. unfold inb in Hi. rewrite E in *. cbn [box1 b_from b_to i0] in N1, N2, Hi.
      assert (Hr : fst s <= i0 i < snd s) by lia. pose proof (sg_own gsize fl tl sl P S s (i0 i) Hs Hr) as Ho. 
      split; intros O.
      + apply owns_f in O. unfold own, L in O. rewrite <- (Ho true) in O. apply (num_inmap true _ _ _ (N1 (cov_own true _ _ O))).
      + apply owns_t in O. unfold own, L in O. rewrite <- (Ho false) in O. apply (num_inmap false _ _ _ (N2 (cov_own false _ _ O))).
    - intros b Hb. rewrite !in_app_iff in Hb.
      assert (K : exists s, In s SG /\ b = box1 (fst s) (snd s)).
      { destruct Hb as [Hb|[Hb|[Hb|Hb]]]; apply in_map_iff in Hb; destruct Hb as [x [<- Hx]].
        - destruct (FL x Hx) as [s [? [? _]]]; eauto.
        - destruct (FS x Hx) as [s [? [? _]]]; eauto.
        - destruct (FR x Hx) as [s [? [? _]]]; eauto.
        - destruct (FD x Hx) as [s [? ?]]; eauto. }
      destruct K as [s [Hs ->]]. cbn. apply Slt; auto.
  Qed.

  Lemma handled_iff : forallb (sg_good (rl_trs fl) (rl_trs tl) gsize me red) SG = true <-> forall i, Handled me red fl tl i.
  Proof.
    assert (K : forall s i, In s SG -> fst s <= i0 i < snd s -> (sg_good (rl_trs fl) (rl_trs tl) gsize me red s = true <-> Handled me red fl tl i)).
    { intros s i Hs Hx. pose proof (sg_own gsize fl tl sl P S s (i0 i) Hs Hx) as Ho. unfold sg_good, Handled.
      rewrite (Ho true : owners gsize (rl_trs fl) (fst s) = _), (Ho false : owners gsize (rl_trs tl) (fst s) = _).
      change (owners gsize (rl_trs fl) (i0 i)) with (own true (i0 i)).
      change (owners gsize (rl_trs tl) (i0 i)) with (own false (i0 i)).
      rewrite owns_f, owns_t. pose proof (fun q => only_f q i) as On.
      assert (Cu : oneInputIsCopy red = true <-> forall n, red <> RO_Custom n).
      { destruct red; simpl; split; intros; try discriminate; auto. exfalso. eapply H; eauto. }
      assert (Rd : is_reduction red = true <-> red <> RO_None).
      { destruct red; simpl; split; intros; try discriminate; auto; congruence. }
      destruct (memb me (own true (i0 i)) || memb me (own false (i0 i))) eqn:M; simpl.
      - assert (Act : In me (own true (i0 i)) \/ In me (own false (i0 i))) by (apply orb_true_iff in M; destruct M as [M|M]; apply memb_in in M; auto).
        destruct (own true (i0 i)) as [|j [|j2 g]] eqn:Eo.
        + rewrite Rd. split.
          * intros R _. split; [intros [q Q]; apply On in Q; discriminate|auto].
          * intros H. apply H; auto. intros q Q. apply On in Q. discriminate.
        + rewrite Cu. split.
          * intros R _. split; auto. intros X. exfalso. apply (X j). apply On. auto.
          * intros H. apply H; auto. exists j. apply On; auto.
        + rewrite Rd. split.
          * intros R _. split; [intros [q Q]; apply On in Q; discriminate|auto].
          * intros H. apply H; auto. intros q Q. apply On in Q. discriminate.
      - split; auto. intros _ X. exfalso. apply orb_false_elim in M. destruct M as [M1 M2].
        destruct X as [X|X]; apply memb_in in X; congruence. }
    rewrite forallb_forall. split.
    - intros H i. destruct (seg_cases i) as [[s [Hs [Hx Ho]]]|[Hn Ho]].
      + apply (K s i Hs Hx). auto.
      + intros X. exfalso. rewrite owns_f, owns_t, !Ho in X. simpl in X. tauto.
    - intros H s Hs. pose proof (sg_lt sl S s Hs). apply (K s (mkIdx (fst s) 0 0) Hs); [simpl; lia|apply H].
  Qed.
End T.

Lemma trans_main qb sp gsize me fl tl f t red : Good1d sp gsize fl tl -> Sees sp gsize me fl tl f t -> c_qsort rb_cmp qb ->
  (exists o, calc_transition qb sp (Some f) (Some t) DF_Preserve red = Ok (Some (mkTrans sp (pa_group (np_p f)) DF_Preserve red o)) /\
     (forall i, Handled me red fl tl i) /\
     OpsInv (rl_trs fl) (rl_trs tl) gsize me red (segs (qb (allb (rl_trs fl) (rl_trs tl)))) o) \/
  (calc_transition qb sp (Some f) (Some t) DF_Preserve red = Abort /\ ~ forall i, Handled me red fl tl i).
Proof.
  intros G Se Hq. rewrite (calc_unfold qb sp gsize me fl tl f t red G Se). destruct (g_sorted sp gsize fl tl G qb Hq) as [P S].
  pose proof (se_in _ _ _ _ _ _ _ Se) as Hme.
  pose proof (calc_ok (rl_trs fl) (rl_trs tl) gsize me red (g_pos sp gsize fl tl G) (g_one sp gsize fl tl G) (g_task sp gsize fl tl G) Hme
    (gd_size _ _ _ _ G) _ P S qb eq_refl fl tl eq_refl eq_refl) as C.
  pose proof (handled_iff sp gsize fl tl G _ P S me red Hme) as HI.
  destruct (calcAddReductions qb false gsize me red fl tl tops_empty) as [o| | | |]; try (destruct C; fail).
  - left. exists o. destruct C as [C1 C2]. split; auto. split; auto. apply HI; auto.
  - right. split; auto. intros X. apply HI in X. congruence.
Qed.
