(* Places of indexes before and after a switch, for one process. *)
From Coq Require Import ZArith List Bool Lia ZifyBool ZifyNat Sorted Permutation.
From Verif Require Import Base Model_Space Model_Mem Model_RangeList Model_Layout Model_Partitioner Model_Group Model_Transition Model_Data Model_ActionTrans Model_Switch.
From Verif Require Import Spec_Space Spec_RangeList Spec_Partitioner Spec_Layout Spec_Data Spec_Transition Spec_ActionTrans.
From Verif Require Import Proof_RangeList Proof_RangeList5 Proof_RangeList4 Proof_Trans1 Proof_Trans2 Proof_Trans3 Proof_Data4 Proof_Switch5.
Import ListNotations.
Open Scope Z_scope.

(* index [z] of process [me] is in map [k] *)
Definition Site (l : rlist) (me : Z) (ml : mlist) (z k : Z) (m : mapping) : Prop :=
  exists x, In x (rl_trs l) /\ t_task x = me /\ tf x <= z < tt x /\ t_mapNo x = k /\ aread (ml_maps ml) k = Ok m.
(* its address *)
Definition adr (es : Z) (l : rlist) (me : Z) (ml : mlist) (z : Z) : Z :=
  match find (has me z) (rl_trs l) with
  | Some x => match aread (ml_maps ml) (t_mapNo x) with Ok m => org es m + z * es | _ => 0 end
  | None => 0
  end.

Section One.
  Variable sp : space.
  Variable es : Z.
  Hypothesis Hdim : sp_dims sp = 1%nat.
  Hypothesis Hes : 0 < es.
  Variable l : rlist.
  Variable me : Z.
  Hypothesis Fz : FrozenList l.
  Hypothesis Hsp : rl_space l = sp.
  Hypothesis Hme : 0 <= me < rl_tids l.
  Hypothesis Hone : forall z, cov (rl_trs l) me z <= 1.
  Variable ml : mlist.
  Hypothesis HG : GoodList sp es ml.
  Hypothesis HC : Covers l me ml.

  Lemma trs_tid x : In x (rl_trs l) -> t_task x = me -> exists n, rl_tidrange l me n = Ok (Some x).
  Proof.
    intros Hx Ht. destruct (FrozenList_Frozen _ Fz) as [F _].
    assert (X : In x (mine me (rl_trs l))) by (apply filter_In; split; auto; lia).
    apply In_nth_error in X. destruct X as [n Hn]. exists (Z.of_nat n). rewrite (frozen_tidrange l F me _ Hme), Nat2Z.id, Hn.
    replace (Z.of_nat n <? 0) with false by lia. auto.
  Qed.

  Lemma site_at x z : In x (rl_trs l) -> t_task x = me -> tf x <= z < tt x -> exists m, Site l me ml z (t_mapNo x) m.
  Proof.
    intros Hx Ht Hz. destruct (trs_tid x Hx Ht) as [n Hn]. destruct (cv_in _ _ _ HC n x Hn) as (m & Hm & _).
    exists m, x. auto.
  Qed.
  Lemma site_req z k m : Site l me ml z k m -> aread (ml_maps ml) k = Ok m /\ i0 (b_from (r_box (m_req m))) <= z < i0 (b_to (r_box (m_req m))).
  Proof.
    intros (x & Hx & Ht & Hz & Hk & Hm). split; auto. destruct (trs_tid x Hx Ht) as [n Hn]. destruct (cv_in _ _ _ HC n x Hn) as (m' & Hm' & HS).
    rewrite Hk in Hm'. assert (m' = m) by congruence. subst m'.
    assert (X : InBox (sp_dims (rl_space l)) (mkIdx z 0 0) (t_box x)) by (rewrite Hsp; apply (inbox1 sp Hdim); unfold tf, tt in Hz; cbn; lia).
    apply HS in X. rewrite Hsp in X. apply (inbox1 sp Hdim) in X. cbn in X. lia.
  Qed.
  Lemma site_seg x a b z k m : In x (rl_trs l) -> tf x <= a -> b <= tt x -> a <= z < b -> Site l me ml a k m -> t_task x = me -> Site l me ml z k m.
  Proof.
    intros Hx H1 H2 Hz (y & Hy & Ht & Hz' & Hk & Hm) Htx. exists x.
    assert (x = y).
    { apply (ncnt_one (has me a) (rl_trs l)); auto; [apply Hone|unfold has; lia|unfold has; lia]. }
    subst y. repeat split; auto; lia.
  Qed.
  Lemma site_fun z k m k' m' : Site l me ml z k m -> Site l me ml z k' m' -> k = k' /\ m = m'.
  Proof.
    intros (x & Hx & Ht & Hz & Hk & Hm) (y & Hy & Ht' & Hz' & Hk' & Hm').
    assert (x = y) by (apply (ncnt_one (has me z) (rl_trs l)); auto; [apply Hone|unfold has; lia|unfold has; lia]).
    subst y. split; congruence.
  Qed.
  Lemma site_adr z k m : Site l me ml z k m -> adr es l me ml z = org es m + z * es.
  Proof.
    intros (x & Hx & Ht & Hz & Hk & Hm). unfold adr. destruct (find (has me z) (rl_trs l)) as [y|] eqn:E.
    - apply find_some in E. destruct E as [E1 E2].
      assert (x = y) by (apply (ncnt_one (has me z) (rl_trs l)); auto; [apply Hone|unfold has; lia]).
      subst y. rewrite Hk, Hm. auto.
    - pose proof (find_none _ _ E x Hx) as X. unfold has in X. lia.
  Qed.
  Lemma site_own z : 1 <= cov (rl_trs l) me z -> exists k m, Site l me ml z k m.
  Proof.
    intros H. destruct (ncnt_positive (has me z) (rl_trs l)) as (x & X1 & X2); [unfold ncnt; unfold cov in H; lia|].
    unfold has in X2. destruct (site_at x z X1 ltac:(lia) ltac:(lia)) as [m Hm]. exists (t_mapNo x), m. auto.
  Qed.
  (* different indexes have different places *)
  Lemma site_sep z k m z' k' m' : Site l me ml z k m -> Site l me ml z' k' m' -> z <> z' -> Away (org es m + z * es) es (org es m' + z' * es) es.
  Proof.
    intros S S' Hz. destruct (site_req _ _ _ S) as [A1 A2]. destruct (site_req _ _ _ S') as [B1 B2].
    destruct (Z.eq_dec k k') as [->|Hk].
    - assert (m' = m) by congruence. subst. unfold Away. destruct (Z.lt_total z z') as [H|[H|H]]; [left; nia|lia|right; nia].
    - destruct (map_space sp es Hdim Hes ml k m HG A1) as (_ & _ & _ & X). destruct (map_space sp es Hdim Hes ml k' m' HG B1) as (_ & _ & _ & Y).
      specialize (X z A2). specialize (Y z' B2). pose proof (gl_away _ _ _ HG k k' m m' Hk A1 B1) as W. unfold Away in *. lia.
  Qed.
End One.

Section Both.
  Variable sp : space.
  Variable es : Z.
  Hypothesis Hdim : sp_dims sp = 1%nat.
  Hypothesis Hes : 0 < es.
  Variables fl tl : rlist.
  Variable me : Z.
  Hypothesis FzF : FrozenList fl.
  Hypothesis FzT : FrozenList tl.
  Hypothesis HspF : rl_space fl = sp.
  Hypothesis HspT : rl_space tl = sp.
  Hypothesis HmeF : 0 <= me < rl_tids fl.
  Hypothesis HmeT : 0 <= me < rl_tids tl.
  Hypothesis HoneF : forall z, cov (rl_trs fl) me z <= 1.
  Hypothesis HoneT : forall z, cov (rl_trs tl) me z <= 1.
  Variables F T : mlist.
  Hypothesis HGF : GoodList sp es F.
  Hypothesis HGT : GoodList sp es T.
  Hypothesis HCF : Covers fl me F.
  Hypothesis HCT : Covers tl me T.
  Hypothesis Place : forall k m, aread (ml_maps T) k = Ok m ->
    (exists j, SamePlace sp es T F k j) \/ (forall j f, aread (ml_maps F) j = Ok f -> Away (m_start m) (m_cap m) (m_start f) (m_cap f)).

  Lemma old_new z k m z' k' m' : Site fl me F z k m -> Site tl me T z' k' m' ->
    (org es m + z * es = org es m' + z' * es /\ z = z' /\ org es m = org es m') \/ Away (org es m + z * es) es (org es m' + z' * es) es.
  Proof.
    intros S S'. destruct (site_req sp Hdim fl me FzF HspF HmeF HoneF F HCF _ _ _ S) as [A1 A2]. destruct (site_req sp Hdim tl me FzT HspT HmeT HoneT T HCT _ _ _ S') as [B1 B2].
    destruct (map_space sp es Hdim Hes F k m HGF A1) as (_ & _ & _ & X). destruct (map_space sp es Hdim Hes T k' m' HGT B1) as (_ & _ & _ & Y).
    specialize (X z A2). specialize (Y z' B2). destruct (Place k' m' B1) as [[j HP]|HA].
    - assert (Hj : exists f, aread (ml_maps F) j = Ok f) by (destruct HP as (mt & mf & lt & lf & Bt & Bf & Nt & Nf & P1 & P2 & _); exists mf; apply (bk_at _ _ _ _ _ _ _ _ P2)).
      destruct Hj as [f Hj]. destruct (same_org sp es Hdim T F k' j m' f HP B1 Hj) as (O1 & O2 & O3).
      destruct (Z.eq_dec k j) as [->|Hne].
      + assert (f = m) by congruence. subst f. rewrite O1. destruct (Z.eq_dec z z') as [->|Hz]; [left; auto|].
        right. unfold Away. destruct (Z.lt_total z z') as [H|[H|H]]; [left; nia|lia|right; nia].
      + right. pose proof (gl_away _ _ _ HGF k j m f Hne A1 Hj) as W. unfold Away in *. lia.
    - right. specialize (HA k m A1). unfold Away in *. lia.
  Qed.
End Both.
