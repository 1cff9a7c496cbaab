(* Transitions in 2d and 3d: results *)
From Coq Require Import ZArith List Bool Lia Permutation Sorted ZifyBool ZifyNat.
From Verif Require Import Base ListFacts Model_Space Spec_Space Proof_Space Model_RangeList Spec_RangeList Proof_RangeList Proof_RangeList4 Proof_RangeList5
  Model_Partitioner Spec_Partitioner Proof_Partitioner Proof_Partitioner2 Proof_Partitioner3 Model_Group Proof_Group Proof_Group3 Model_Transition Spec_Transition
  Proof_Trans1 Proof_Trans2 Proof_Trans3 Proof_Trans4 Proof_Trans5 Proof_Trans6.
Import ListNotations.
Open Scope Z_scope.

Lemma others_NoDup g me : NoDup (others g me).
Proof. unfold others. apply NoDup_filter. apply zcount_NoDup. Qed.

Section Once.
  Context {A : Type} (P : A -> Prop).
  Definition Once (l : list A) := forall n m x y, nth_error l n = Some x -> nth_error l m = Some y -> P x -> P y -> n = m.
  Lemma once_app a b : Once a -> Once b -> (forall x y, In x a -> In y b -> P x -> P y -> False) -> Once (a ++ b).
  Proof.
    intros Ha Hb H n m x y Hn Hm Px Py.
    destruct (Nat.ltb n (length a)) eqn:En; destruct (Nat.ltb m (length a)) eqn:Em.
    - rewrite nth_error_app1 in Hn, Hm by lia. eapply Ha; eauto.
    - rewrite nth_error_app1 in Hn by lia. rewrite nth_error_app2 in Hm by lia. exfalso. eapply H; eauto using nth_error_In.
    - rewrite nth_error_app1 in Hm by lia. rewrite nth_error_app2 in Hn by lia. exfalso. eapply H; eauto using nth_error_In.
    - rewrite nth_error_app2 in Hn, Hm by lia. assert (n - length a = m - length a)%nat by (eapply Hb; eauto). lia.
  Qed.
  Lemma once_flat {B} (f : B -> list A) l : (forall b, In b l -> Once (f b)) ->
    (forall n m b c x y, nth_error l n = Some b -> nth_error l m = Some c -> In x (f b) -> In y (f c) -> P x -> P y -> n = m) -> Once (flat_map f l).
  Proof.
    induction l as [|b l IH]; intros H1 H2; simpl.
    - intros n m x y Hn. destruct n; discriminate.
    - apply once_app.
      + apply H1. left; auto.
      + apply IH; [intros; apply H1; right; auto|]. intros n m b' c x y Hn Hm Hx Hy Px Py.
        assert (S n = S m) by (apply (H2 (S n) (S m) b' c x y); auto). lia.
      + intros x y Hx Hy Px Py. apply in_flat_map in Hy. destruct Hy as [c [C1 C2]]. apply In_nth_error in C1. destruct C1 as [m Hm].
        assert (0%nat = S m) by (apply (H2 0%nat (S m) b c x y); auto). discriminate.
  Qed.
End Once.

Lemma once_opt {A} (P : A -> Prop) (o : option A) : Once P (opt_list o).
Proof. destruct o as [a|]; intros [|n] [|m] x y; simpl; auto; try discriminate; try (destruct n; discriminate); destruct m; discriminate. Qed.

Lemma nodup_nth {A} (l : list A) n m x : NoDup l -> nth_error l n = Some x -> nth_error l m = Some x -> n = m.
Proof. intros N Hn Hm. eapply (proj1 (NoDup_nth_error l) N); [apply nth_error_Some; congruence|congruence]. Qed.

Section Nd.
  Variables (sp : space) (gsize : Z) (fl tl : rlist).
  Hypothesis G : GoodNd sp gsize fl tl.
  Local Notation d := (sp_dims sp).
  Local Notation F t := (numbered (mine t (rl_trs fl))).
  Local Notation T t := (numbered (mine t (rl_trs tl))).
  Hypothesis NeF : NoEmpty fl.
  Hypothesis NeT : NoEmpty tl.
  Hypothesis U : Unique fl.

  Section One.
    Variables (me : Z) (o : tops).
    Hypothesis Hme : 0 <= me < gsize.
    Hypothesis O : NdOps sp gsize fl tl me o.

    Lemma nd_at i : NdAt d me fl tl o i.
    Proof.
      destruct O as [O1 O2 O3 O4 O5]. constructor; auto.
      - rewrite O1. unfold locals. split.
        + intros [x [H1 H2]]. apply in_flat_map in H1. destruct H1 as [[k y] [Y1 H1]]. apply in_flat_map in H1. destruct H1 as [[k' z] [Z1 H1]].
          apply in_map_iff in H1. destruct H1 as [b [<- B]]. simpl in H2. apply (isect_in sp _ _ _ i B) in H2. simpl in H2.
          destruct H2. split; [apply (inF _ _ _ _ G NeF _ _ _ Hme Y1); assumption|apply (inT _ _ _ _ G NeT _ _ _ Hme Z1); assumption].
        + intros [H1 H2]. apply (ownsF _ _ _ _ G) in H1. apply (ownsT _ _ _ _ G) in H2. destruct H1 as [_ [y [Y1 Y2]]]. destruct H2 as [_ [z [Z1 Z2]]].
          destruct (isect_some sp y z i Y2 Z2) as [b [B1 B2]]. exists (lo_of y z b). split; [|exact B2].
          apply in_flat_map. exists y. split; [exact Y1|]. apply in_flat_map. exists z. split; [exact Z1|]. apply in_map; exact B1.
      - intros t. rewrite O3. split.
        + intros [x [H1 [<- H2]]]. apply in_flat_map in H1. destruct H1 as [t [T1 H1]]. pose proof H1 as Q. apply sends_to in Q. rewrite Q.
          apply others_in in T1. destruct T1 as [T1 T2]. unfold sends in H1. apply in_flat_map in H1. destruct H1 as [[k y] [Y1 H1]].
          destruct (has_equal _ _ _); [destruct H1|]. apply in_flat_map in H1. destruct H1 as [[k' z] [Z1 H1]].
          apply in_map_iff in H1. destruct H1 as [b [<- B]]. simpl in H2. apply (isect_in sp _ _ _ i B) in H2. simpl in H2. split; auto.
          destruct H2. split; [apply (inF _ _ _ _ G NeF _ _ _ Hme Y1); assumption|apply (inT _ _ _ _ G NeT _ _ _ T1 Z1); assumption].
        + intros [N [H1 H2]]. apply (ownsF _ _ _ _ G) in H1. apply (ownsT _ _ _ _ G) in H2. destruct H1 as [_ [y [Y1 Y2]]]. destruct H2 as [Ht [z [Z1 Z2]]].
          destruct (isect_some sp y z i Y2 Z2) as [b [B1 B2]]. exists (sd_of t y b). split; [|split; [reflexivity|exact B2]].
          apply in_flat_map. exists t. split; [apply others_in; auto|]. unfold sends. apply in_flat_map. exists y. split; [exact Y1|].
          rewrite (no_skip_send sp gsize fl tl G NeF U me t y); auto. apply in_flat_map. exists z. split; [exact Z1|]. apply in_map; exact B1.
      - intros s. rewrite O2. split.
        + intros [x [H1 [<- H2]]]. apply in_flat_map in H1. destruct H1 as [t [T1 H1]]. pose proof H1 as Q. apply recvs_from in Q. rewrite Q.
          apply others_in in T1. destruct T1 as [T1 T2]. unfold recvs in H1. apply in_flat_map in H1. destruct H1 as [[k y] [Y1 H1]].
          destruct (has_equal _ _ _); [destruct H1|]. apply in_flat_map in H1. destruct H1 as [[k' z] [Z1 H1]].
          apply in_map_iff in H1. destruct H1 as [b [<- B]]. simpl in H2. apply (isect_in sp _ _ _ i B) in H2. simpl in H2. split; auto.
          destruct H2. split; [apply (inF _ _ _ _ G NeF _ _ _ T1 Z1); assumption|apply (inT _ _ _ _ G NeT _ _ _ Hme Y1); assumption].
        + intros [N [H1 H2]]. apply (ownsF _ _ _ _ G) in H1. apply (ownsT _ _ _ _ G) in H2. destruct H1 as [Hs [y [Y1 Y2]]]. destruct H2 as [Ht [z [Z1 Z2]]].
          destruct (isect_some sp y z i Y2 Z2) as [b [B1 B2]]. exists (rc_of s z b). split; [|split; [reflexivity|exact B2]].
          apply in_flat_map. exists s. split; [apply others_in; auto|]. unfold recvs. apply in_flat_map. exists z. split; [exact Z1|].
          destruct (has_equal d (t_box (snd z)) (F me)) eqn:E.
          * exfalso. pose proof (skip_recv sp gsize fl tl G NeF NeT U s me z Hs Ht N Z1 E) as Q.
            assert (In b (flat_map (fun x => isect d x z) (F s))) by (apply in_flat_map; exists y; split; auto). rewrite Q in H. destruct H.
          * apply in_flat_map. exists y. split; [exact Y1|]. apply in_map; exact B1.
    Qed.

    Lemma isect_sub y z b : In b (isect d y z) -> SubBox d b (t_box (snd y)) /\ SubBox d b (t_box (snd z)).
    Proof. intros B. split; intros i Hi; apply (isect_in sp _ _ _ i B) in Hi; tauto. Qed.

    Lemma nd_maps : NdMaps d me fl tl o.
    Proof.
      destruct O as [O1 O2 O3 O4 O5]. constructor.
      - rewrite O1. intros x H1. unfold locals in H1. apply in_flat_map in H1. destruct H1 as [[k y] [Y1 H1]]. apply in_flat_map in H1. destruct H1 as [[k' z] [Z1 H1]].
        apply in_map_iff in H1. destruct H1 as [b [<- B]]. destruct (isect_sub _ _ _ B) as [S1 S2]. simpl in *.
        split; [exists y|exists z]; (split; [|split; auto]); [apply (inF _ _ _ _ G NeF _ _ _ Hme Y1)|apply (inT _ _ _ _ G NeT _ _ _ Hme Z1)].
      - rewrite O3. intros x H1. apply in_flat_map in H1. destruct H1 as [t [T1 H1]]. apply others_in in T1. unfold sends in H1.
        apply in_flat_map in H1. destruct H1 as [[k y] [Y1 H1]]. destruct (has_equal _ _ _); [destruct H1|]. apply in_flat_map in H1. destruct H1 as [[k' z] [Z1 H1]].
        apply in_map_iff in H1. destruct H1 as [b [<- B]]. destruct (isect_sub _ _ _ B) as [S1 S2]. simpl in *.
        exists y. split; [apply (inF _ _ _ _ G NeF _ _ _ Hme Y1)|auto].
      - rewrite O2. intros x H1. apply in_flat_map in H1. destruct H1 as [t [T1 H1]]. apply others_in in T1. unfold recvs in H1.
        apply in_flat_map in H1. destruct H1 as [[k y] [Y1 H1]]. destruct (has_equal _ _ _); [destruct H1|]. apply in_flat_map in H1. destruct H1 as [[k' z] [Z1 H1]].
        apply in_map_iff in H1. destruct H1 as [b [<- B]]. destruct (isect_sub _ _ _ B) as [S1 S2]. simpl in *.
        exists y. split; [apply (inT _ _ _ _ G NeT _ _ _ Hme Y1)|auto].
    Qed.

    (* every index is written at most once *)
    Hypothesis DF : OwnDisjoint fl.
    Hypothesis DT : OwnDisjoint tl.

    Lemma posF t n y : 0 <= t < gsize -> nth_error (F t) n = Some y -> rl_tidrange fl t (Z.of_nat n) = Ok (Some (snd y)).
    Proof.
      intros Ht H. destruct y as [k y]. assert (E : k = Z.of_nat n).
      { assert (Hn : (n < length (mine t (rl_trs fl)))%nat) by (rewrite <- numbered_length; apply nth_error_Some; congruence).
        destruct (nth_error (mine t (rl_trs fl)) n) as [z|] eqn:E; [|apply nth_error_None in E; lia].
        rewrite (numbered_nth _ _ _ E) in H. congruence. }
      apply nth_error_In in H. apply (inF _ _ _ _ G NeF t k y Ht) in H. rewrite <- E. apply H.
    Qed.
    Lemma posT t n y : 0 <= t < gsize -> nth_error (T t) n = Some y -> rl_tidrange tl t (Z.of_nat n) = Ok (Some (snd y)).
    Proof.
      intros Ht H. destruct y as [k y]. assert (E : k = Z.of_nat n).
      { assert (Hn : (n < length (mine t (rl_trs tl)))%nat) by (rewrite <- numbered_length; apply nth_error_Some; congruence).
        destruct (nth_error (mine t (rl_trs tl)) n) as [z|] eqn:E; [|apply nth_error_None in E; lia].
        rewrite (numbered_nth _ _ _ E) in H. congruence. }
      apply nth_error_In in H. apply (inT _ _ _ _ G NeT t k y Ht) in H. rewrite <- E. apply H.
    Qed.
    Lemma posF_eq i t n m y z : 0 <= t < gsize -> nth_error (F t) n = Some y -> nth_error (F t) m = Some z ->
      InBox d i (t_box (snd y)) -> InBox d i (t_box (snd z)) -> n = m.
    Proof.
      intros Ht Hn Hm Hy Hz. apply posF in Hn; auto. apply posF in Hm; auto. assert (E : rl_space fl = sp) by apply G.
      pose proof (DF t _ _ _ _ i Hn Hm) as Q. rewrite E in Q. specialize (Q Hy Hz). lia.
    Qed.
    Lemma posT_eq i t n m y z : 0 <= t < gsize -> nth_error (T t) n = Some y -> nth_error (T t) m = Some z ->
      InBox d i (t_box (snd y)) -> InBox d i (t_box (snd z)) -> n = m.
    Proof.
      intros Ht Hn Hm Hy Hz. apply posT in Hn; auto. apply posT in Hm; auto. assert (E : rl_space tl = sp) by apply G.
      pose proof (DT t _ _ _ _ i Hn Hm) as Q. rewrite E in Q. specialize (Q Hy Hz). lia.
    Qed.

    Lemma nd_once i : AtMostOnce d i (map lo_box (tp_local o) ++ map rc_box (tp_recv o)).
    Proof.
      destruct O as [O1 O2 O3 O4 O5]. change (Once (InBox d i) (map lo_box (tp_local o) ++ map rc_box (tp_recv o))).
      apply once_app.
      - rewrite O1. unfold locals. rewrite map_flat_map. apply once_flat.
        + intros y Hy. rewrite map_flat_map. apply once_flat.
          * intros z Hz. rewrite map_map. simpl. rewrite map_id. apply once_opt.
          * intros n m b c x x' Hn Hm Hx Hx' Px Px'. apply in_map_iff in Hx. destruct Hx as [q [<- Hx]]. apply in_map_iff in Hx. destruct Hx as [q' [<- Hx]].
            apply in_map_iff in Hx'. destruct Hx' as [r [<- Hx']]. apply in_map_iff in Hx'. destruct Hx' as [r' [<- Hx']]. simpl in *.
            apply (isect_in sp _ _ _ i Hx) in Px. apply (isect_in sp _ _ _ i Hx') in Px'. exact (posT_eq i me _ _ _ _ Hme Hn Hm (proj2 Px) (proj2 Px')).
        + intros n m b c x x' Hn Hm Hx Hx' Px Px'. apply in_map_iff in Hx. destruct Hx as [q [<- Hx]]. apply in_flat_map in Hx. destruct Hx as [y [Y Hx]].
          apply in_map_iff in Hx. destruct Hx as [q' [<- Hx]].
          apply in_map_iff in Hx'. destruct Hx' as [r [<- Hx']]. apply in_flat_map in Hx'. destruct Hx' as [y' [Y' Hx']].
          apply in_map_iff in Hx'. destruct Hx' as [r' [<- Hx']]. simpl in *.
          apply (isect_in sp _ _ _ i Hx) in Px. apply (isect_in sp _ _ _ i Hx') in Px'. exact (posF_eq i me _ _ _ _ Hme Hn Hm (proj1 Px) (proj1 Px')).
      - rewrite O2, map_flat_map. apply once_flat.
        + intros t Ht. apply others_in in Ht. destruct Ht as [Ht N]. pose proof (recvs_boxes sp gsize fl tl G NeF NeT U t me Ht Hme N) as E. rewrite E. apply once_flat.
          * intros y Hy. apply once_flat; [intros; apply once_opt|].
            intros n m b c x x' Hn Hm Hx Hx' Px Px'.
            apply (isect_in sp _ _ _ i Hx) in Px. apply (isect_in sp _ _ _ i Hx') in Px'. exact (posF_eq i t _ _ _ _ Ht Hn Hm (proj1 Px) (proj1 Px')).
          * intros n m b c x x' Hn Hm Hx Hx' Px Px'. apply in_flat_map in Hx. destruct Hx as [y [Y Hx]]. apply in_flat_map in Hx'. destruct Hx' as [y' [Y' Hx']].
            apply (isect_in sp _ _ _ i Hx) in Px. apply (isect_in sp _ _ _ i Hx') in Px'. exact (posT_eq i me _ _ _ _ Hme Hn Hm (proj2 Px) (proj2 Px')).
        + intros n m b c x x' Hn Hm Hx Hx' Px Px'. assert (Hb : In b (others gsize me)) by (eapply nth_error_In; eauto).
          assert (Hc : In c (others gsize me)) by (eapply nth_error_In; eauto).
          apply others_in in Hb. apply others_in in Hc.
          assert (E : b = c); [|subst c; eapply nodup_nth; eauto using others_NoDup].
          pose proof (recvs_boxes sp gsize fl tl G NeF NeT U b me (proj1 Hb) Hme (proj2 Hb)) as E1. pose proof (recvs_boxes sp gsize fl tl G NeF NeT U c me (proj1 Hc) Hme (proj2 Hc)) as E2.
          rewrite E1 in Hx. rewrite E2 in Hx'.
          apply in_flat_map in Hx. destruct Hx as [y [Y Hx]]. apply in_flat_map in Hx. destruct Hx as [[k z] [Z Hx]].
          apply in_flat_map in Hx'. destruct Hx' as [y' [Y' Hx']]. apply in_flat_map in Hx'. destruct Hx' as [[k' z'] [Z' Hx']].
          apply (isect_in sp _ _ _ i Hx) in Px. apply (isect_in sp _ _ _ i Hx') in Px'. simpl in *.
          apply (U b c i); [apply (inF _ _ _ _ G NeF b k z (proj1 Hb) Z); apply Px || apply Px'|apply (inF _ _ _ _ G NeF c k' z' (proj1 Hc) Z'); tauto].
      - intros x y Hx Hy Px Py. destruct (nd_at i) as [N1 _ N3 _ _].
        assert (A : Owns fl me i) by (apply N1; apply in_map_iff in Hx; destruct Hx as [x' [E Hx]]; exists x'; split; auto; rewrite E; auto).
        apply in_map_iff in Hy. destruct Hy as [y' [E Hy]]. assert (B : rc_from y' <> me /\ Owns fl (rc_from y') i /\ Owns tl me i).
        { apply N3. exists y'. split; auto. split; auto. rewrite E. auto. }
        apply (proj1 B). apply (U _ _ i); tauto.
    Qed.
  End One.

  (* messages between two processes *)
  Section Two.
    Variables (p q : Z) (op oq : tops).
    Hypothesis Hp : 0 <= p < gsize.
    Hypothesis Hq : 0 <= q < gsize.
    Hypothesis N : p <> q.
    Hypothesis Op : NdOps sp gsize fl tl p op.
    Hypothesis Oq : NdOps sp gsize fl tl q oq.

    Lemma sent_eq : sent_to op q = flat_map (fun x => flat_map (fun y => isect d x y) (T q)) (F p).
    Proof.
      unfold sent_to. rewrite (no_send _ _ _ _ _ _ Op), (filter_others sd_to).
      - assert (M : memb q (others gsize p) = true) by (apply memb_in, others_in; auto). rewrite M. apply (sends_boxes sp gsize fl tl G NeF U p q); auto.
      - apply others_NoDup.
      - intros t x. apply sends_to.
    Qed.
    Lemma expected_eq : expected_from oq p = flat_map (fun y => flat_map (fun x => isect d x y) (F p)) (T q).
    Proof.
      unfold expected_from. rewrite (no_recv _ _ _ _ _ _ Oq), (filter_others rc_from).
      - assert (M : memb p (others gsize q) = true) by (apply memb_in, others_in; auto). rewrite M. apply (recvs_boxes sp gsize fl tl G NeF NeT U p q); auto.
      - apply others_NoDup.
      - intros t x. apply recvs_from.
    Qed.
    Lemma nd_match : Permutation (sent_to op q) (expected_from oq p).
    Proof. rewrite sent_eq, expected_eq. apply (flat_map_swap (fun x y => isect d x y)). Qed.

    Lemma one_F : AtMostOne fl p -> (length (F p) <= 1)%nat.
    Proof.
      intros H. unfold AtMostOne in H. assert (Fz : FrozenList fl) by apply G. assert (E : rl_tids fl = gsize) by apply G.
      destruct (FrozenList_Frozen _ Fz) as [Fr _]. rewrite (frozen_tidrange _ Fr) in H by lia. assert (H' : nth_error (mine p (rl_trs fl)) 1 = None) by (injection H as H; exact H).
      rewrite numbered_length. apply nth_error_None in H'. lia.
    Qed.
    Lemma one_T : AtMostOne tl q -> (length (T q) <= 1)%nat.
    Proof.
      intros H. unfold AtMostOne in H. assert (Fz : FrozenList tl) by apply G. assert (E : rl_tids tl = gsize) by apply G.
      destruct (FrozenList_Frozen _ Fz) as [Fr _]. rewrite (frozen_tidrange _ Fr) in H by lia. assert (H' : nth_error (mine q (rl_trs tl)) 1 = None) by (injection H as H; exact H).
      rewrite numbered_length. apply nth_error_None in H'. lia.
    Qed.
    Lemma nd_match_order : AtMostOne fl p \/ AtMostOne tl q -> sent_to op q = expected_from oq p.
    Proof.
      rewrite sent_eq, expected_eq. intros [H|H].
      - apply one_F in H. destruct (F p) as [|x [|? ?]]; simpl in H; try lia.
        + simpl. rewrite flat_map_nil. auto.
        + simpl. rewrite app_nil_r. apply flat_map_eq. intros y _. rewrite app_nil_r. auto.
      - apply one_T in H. destruct (T q) as [|y [|? ?]]; simpl in H; try lia.
        + simpl. rewrite flat_map_nil. auto.
        + simpl. rewrite app_nil_r. apply flat_map_eq. intros x _. rewrite app_nil_r. auto.
    Qed.
  End Two.
End Nd.

Lemma nd_unfold qb sp gsize me fl tl f t red : GoodNd sp gsize fl tl -> SeesAll sp gsize me fl tl f t ->
  calc_transition qb sp (Some f) (Some t) DF_Preserve red =
  do o <- nd_preserve gsize me red sp fl tl tops_empty; Ok (Some (mkTrans sp (pa_group (np_p f)) DF_Preserve red o)).
Proof.
  intros G S. destruct S as [S1 S2 S3 S4 S5 S6 S7 S8]. destruct G as [Gf Gt Gfs Gts Gd Gft Gtt].
  unfold calc_transition, do_calc_transition, trans_group. rewrite <- S3, Z.eqb_refl, S1, S2. cbn [cassert obind].
  rewrite S5. destruct (me =? -1) eqn:E; [lia|]. cbn [obind].
  assert (E1 : Nat.eqb (sp_dims sp) 1 = false) by (destruct Gd as [->| ->]; reflexivity). rewrite E1, S7, S8, S4. reflexivity.
Qed.
