(* Merging messages of the same kind: copy in, one message, copy out. *)
From Coq Require Import ZArith List Bool Lia ZifyBool ZifyNat.
From Verif Require Import Base Model_Mem Model_Transition Model_Action Model_ActionTrans Model_ActionExec Spec_ActionTrans.
From Verif Require Import Proof_Type Proof_Layout5 Proof_Layout7 Proof_Comb1 Proof_Comb2.
Import ListNotations.
Open Scope Z_scope.

(* the common form of the actions which get merged *)
Definition uni (i o : bool) (ch : chan) (src dst n : Z) : instr :=
  mkI (if o then Some ch else None) (if o then n else 0) (if i then Some ch else None)
      (fun m => if i then rdb m src n else []) (fun m bs => if o then mwrite m dst bs else m).

Definition when (b : bool) (a : area) : area := fun x => b = true /\ a x.

Lemma region_dec p n x : region p n x \/ ~ region p n x.
Proof. unfold region. destruct (p <=? x) eqn:A, (x <? p + n) eqn:B; lia. Qed.
Lemma when_dec b p n x : when b (region p n) x \/ ~ when b (region p n) x.
Proof. unfold when. destruct b; [|right; intros [H _]; discriminate]. destruct (region_dec p n x); [left|right]; tauto. Qed.

Lemma rdb_ext m m' p n : (forall x, region p n x -> m x = m' x) -> rdb m p n = rdb m' p n.
Proof. intros H. unfold rdb, bytes. symmetry. apply mread_ext. intros a Ha. symmetry. apply H. unfold region. lia. Qed.
Lemma rdb_length m p n : 0 <= n -> Z.of_nat (length (rdb m p n)) = n.
Proof. intros. unfold rdb, bytes. rewrite mread_length. lia. Qed.
Lemma rdb_nth m p n k : 0 <= k < n -> nth (Z.to_nat k) (rdb m p n) 0 = m (p + k).
Proof. intros. unfold rdb, bytes. rewrite mread_nth by lia. f_equal. lia. Qed.

Lemma mwrite_write m m' p bs a : region p (Z.of_nat (length bs)) a -> mwrite m p bs a = mwrite m' p bs a.
Proof. unfold region. intros. rewrite !mwrite_in; auto. Qed.
Lemma mwrite_keep m p bs a : ~ region p (Z.of_nat (length bs)) a -> mwrite m p bs a = m a.
Proof. unfold region. intros. apply mwrite_out. lia. Qed.

Lemma uni_frame i o ch src dst n : 0 <= n -> Frame (uni i o ch src dst n) (when i (region src n)) (when o (region dst n)).
Proof.
  intros Hn. unfold uni. split; [|split; [|split; [|split]]]; simpl.
  - destruct o; lia.
  - destruct o; [discriminate|auto].
  - apply when_dec.
  - intros m bs x Hl Hx. destruct o; auto. apply mwrite_keep. intros H. apply Hx. split; auto. rewrite Hl in H. auto.
  - intros m m' bs Hl Hm. split.
    + destruct i; auto. apply rdb_ext. intros x Hx. apply Hm. split; auto.
    + intros x [-> Hx]. apply mwrite_write. rewrite Hl. auto.
Qed.

Section Fuse.
  Context {A : Type} (len : A -> Z).
  Fixpoint tot (l : list A) : Z := match l with [] => 0 | x :: l' => len x + tot l' end.
  Fixpoint ents (addr : A -> Z) (off : Z) (l : list A) : list centry :=
    match l with [] => [] | x :: l' => mkCE (addr x) off (len x) :: ents addr (off + len x) l' end.
  Definition pos (l : list A) : Prop := Forall (fun x => 0 <= len x) l.

  Lemma tot_nonneg l : pos l -> 0 <= tot l.
  Proof. induction 1; simpl; lia. Qed.
  Lemma tot_app l1 l2 : tot (l1 ++ l2) = tot l1 + tot l2.
  Proof. induction l1; simpl; lia. Qed.

End Fuse.

Section Fuse2.
  Context {A : Type} (src dst len : A -> Z).
  Local Notation tot := (tot len).
  Local Notation ents := (ents len).
  Local Notation pos := (pos len).
  Local Notation tot_nonneg := (tot_nonneg len).
  Local Notation tot_app := (tot_app len).

  Lemma copy_to_spec b l : forall off m, pos l ->
    (forall x, In x l -> apart (region (src x) (len x)) (region (b + off) (tot l))) ->
    let m' := copy_to (ents src off l) b m in
    rdb m' (b + off) (tot l) = flat_map (fun x => rdb m (src x) (len x)) l /\
    (forall a, ~ region (b + off) (tot l) a -> m' a = m a).
  Proof.
    induction l as [|x l IH]; intros off m P D; simpl; [split; auto|].
    inversion P as [|? ? Px Pl]; subst. pose proof (tot_nonneg l Pl) as Ht.
    set (m1 := mwrite m (b + off) (rdb m (src x) (len x))).
    assert (L : Z.of_nat (length (rdb m (src x) (len x))) = len x) by (apply rdb_length; auto).
    assert (D1 : forall y, In y l -> apart (region (src y) (len y)) (region (b + (off + len x)) (tot l))).
    { intros y Hy a Ha Hb. apply (D y (or_intror Hy) a Ha). simpl. unfold region in *. lia. }
    destruct (IH (off + len x) m1 Pl D1) as [E1 E2]. change (fold_left _ _ m1) with (copy_to (ents src (off + len x) l) b m1).
    set (m' := copy_to _ b m1) in *.
    assert (Em : forall a, ~ region (b + off) (len x) a -> m1 a = m a).
    { intros a Ha. unfold m1. apply mwrite_keep. rewrite L. auto. }
    split.
    - unfold rdb at 1, bytes. replace (Z.to_nat (len x + tot l)) with (Z.to_nat (len x) + Z.to_nat (tot l))%nat by lia. rewrite mread_app. f_equal.
      + transitivity (rdb m1 (b + off) (len x)).
        * apply rdb_ext. intros a Ha. apply E2. unfold region in *. lia.
        * unfold m1, rdb at 1, bytes. apply mread_mwrite_same. lia.
      + replace (b + off + Z.of_nat (Z.to_nat (len x))) with (b + (off + len x)) by lia.
        change (mread m' (b + (off + len x)) (Z.to_nat (tot l))) with (rdb m' (b + (off + len x)) (tot l)). rewrite E1.
        rewrite !flat_map_concat_map. f_equal. apply map_ext_in. intros y Hy. apply rdb_ext. intros a Ha. apply Em.
        intros H. apply (D y (or_intror Hy) a Ha). simpl. unfold region in *. lia.
    - intros a Ha. rewrite E2, Em; auto; unfold region in *; lia.
  Qed.

  Lemma copy_from_spec b l : forall off m, pos l ->
    (forall x, In x l -> apart (region (dst x) (len x)) (region (b + off) (tot l))) ->
    ForallOrdPairs (fun x y => apart (region (dst x) (len x)) (region (dst y) (len y))) l ->
    let m' := copy_from (ents dst off l) b m in
    (forall l1 x l2 a, l = l1 ++ x :: l2 -> region (dst x) (len x) a -> m' a = m (b + off + tot l1 + (a - dst x))) /\
    (forall a, (forall x, In x l -> ~ region (dst x) (len x) a) -> m' a = m a).
  Proof.
    induction l as [|x l IH]; intros off m P D O; simpl; [split; auto; intros [|]; discriminate|].
    inversion P as [|? ? Px Pl]; subst. pose proof (tot_nonneg l Pl) as Ht. inversion O as [|? ? Ox Ol]; subst. rewrite Forall_forall in Ox.
    set (m1 := mwrite m (dst x) (rdb m (b + off) (len x))).
    assert (L : Z.of_nat (length (rdb m (b + off) (len x))) = len x) by (apply rdb_length; auto).
    assert (D1 : forall y, In y l -> apart (region (dst y) (len y)) (region (b + (off + len x)) (tot l))).
    { intros y Hy a Ha Hb. apply (D y (or_intror Hy) a Ha). simpl. unfold region in *. lia. }
    destruct (IH (off + len x) m1 Pl D1 Ol) as [E1 E2]. change (fold_left _ _ m1) with (copy_from (ents dst (off + len x) l) b m1).
    set (m' := copy_from _ b m1) in *.
    assert (Em : forall a, ~ region (dst x) (len x) a -> m1 a = m a).
    { intros a Ha. unfold m1. apply mwrite_keep. rewrite L. auto. }
    split.
    - intros l1 y l2 a El Ha. destruct l1 as [|z l1]; simpl in El; injection El as <- El.
      + rewrite E2 by (intros y Hy H; apply (Ox y Hy a Ha H)). unfold m1. unfold region in Ha. rewrite mwrite_in by lia. rewrite rdb_nth by lia. simpl. f_equal. lia.
      + rewrite (E1 l1 y l2 a El Ha). simpl. replace (b + off + (len x + tot l1) + (a - dst y)) with (b + (off + len x) + tot l1 + (a - dst y)) by lia.
        apply Em. intros H. apply (D x (or_introl eq_refl) _ H). simpl. unfold region in *. subst l.
        rewrite tot_app in *. simpl tot in *. apply Forall_app in Pl as [P1 P2]. inversion P2 as [|? ? Py P3]; subst.
        pose proof (tot_nonneg l1 P1). pose proof (tot_nonneg l2 P3). lia.
    - intros a Ha. rewrite E2 by (intros; apply Ha; auto). apply Em. apply Ha. auto.
  Qed.

  Definition orig (i o : bool) (ch : chan) (x : A) : fi := mkF (uni i o ch (src x) (dst x) (len x)) (when i (region (src x) (len x))) (when o (region (dst x) (len x))).
  Definition copyin (b off : Z) (l : list A) : instr := mkI None 0 None (fun _ => []) (fun m _ => copy_to (ents src off l) b m).
  Definition copyout (b off : Z) (l : list A) : instr := mkI None 0 None (fun _ => []) (fun m _ => copy_from (ents dst off l) b m).
  Definition merged (i o : bool) (ch : chan) (b off : Z) (l : list A) : instr := uni i o ch (b + off) (b + off) (tot l).

  Lemma need_orig i o ch l c : need f_i c (map (orig i o ch) l) = if on c (if o then Some ch else None) then tot l else 0.
  Proof.
    unfold need. induction l as [|x l IH]; simpl; [destruct (on c _); auto|]. rewrite IH. destruct o; simpl; auto. destruct (chan_eq_dec c ch); auto.
  Qed.
  Lemma sends_orig i o ch l c m : sends f_i m c (map (orig i o ch) l) = if on c (if i then Some ch else None) then flat_map (fun x => rdb m (src x) (len x)) l else [].
  Proof.
    unfold sends. induction l as [|x l IH]; simpl; [destruct (on c _); auto|]. rewrite IH. destruct i; simpl; auto. destruct (chan_eq_dec c ch); auto.
  Qed.

  Lemma nth_firstn' {B} (d : B) (l : list B) : forall k n, (k < n)%nat -> nth k (firstn n l) d = nth k l d.
  Proof. induction l as [|y l IH]; intros k n H; [rewrite firstn_nil; auto|]. destruct n; [lia|]. destruct k; simpl; auto. apply IH. lia. Qed.
  Lemma nth_skipn' {B} (d : B) (l : list B) : forall k n, nth k (skipn n l) d = nth (n + k) l d.
  Proof. induction l as [|y l IH]; intros k n; [rewrite skipn_nil; destruct k, n; auto|]. destruct n; simpl; auto. Qed.

  Lemma pairs_dst i ch q : ForallOrdPairs (fun x y => Indep (f_rd x) (f_wr x) (f_rd y) (f_wr y)) (map (orig i true ch) q) ->
    ForallOrdPairs (fun x y => apart (region (dst x) (len x)) (region (dst y) (len y))) q.
  Proof.
    induction q as [|x q IH]; intros H; constructor; inversion H as [|? ? H1 H2]; subst; auto. apply Forall_forall. intros y Hy a Q1 Q2.
    rewrite Forall_forall in H1. destruct (H1 (orig i true ch y) (in_map (orig i true ch) q y Hy)) as (_ & W & _). apply (W a); split; auto.
  Qed.

  Theorem fuse i o ch (T : area) b off l s t : pos l ->
    (forall x, region (b + off) (tot l) x -> T x) ->
    Forall (away T) (map (orig i o ch) l) ->
    ForallOrdPairs (fun x y => Indep (f_rd x) (f_wr x) (f_rd y) (f_wr y)) (map (orig i o ch) l) ->
    AgreeOut T s t ->
    SameRun T (ex (map (orig i o ch) l) s)
      (exec_is ((if i then [copyin b off l] else []) ++ [merged i o ch b off l] ++ (if o then [copyout b off l] else [])) t).
  Proof.
    intros P HT Aw O (M & I & Q).
    assert (Fr : forall x, In x (map (orig i o ch) l) -> Frame (f_i x) (f_rd x) (f_wr x)).
    { intros x Hx. apply in_map_iff in Hx as (y & <- & Hy). apply uni_frame. unfold pos in P. rewrite Forall_forall in P. auto. }
    pose proof (tot_nonneg l P) as Htot. rewrite Forall_forall in Aw.
    assert (Asrc : i = true -> forall x, In x l -> apart (region (src x) (len x)) T).
    { intros Hi x Hx a Ha. destruct (Aw (orig i o ch x) (in_map (orig i o ch) l x Hx)) as [A1 _]. apply A1. split; auto. }
    assert (Adst : o = true -> forall x, In x l -> apart (region (dst x) (len x)) T).
    { intros Hi x Hx a Ha. destruct (Aw (orig i o ch x) (in_map (orig i o ch) l x Hx)) as [_ A1]. apply A1. split; auto. }
    (* copy in *)
    set (t0m := if i then copy_to (ents src off l) b (p_mem t) else p_mem t).
    assert (T0 : (i = true -> rdb t0m (b + off) (tot l) = flat_map (fun x => rdb (p_mem s) (src x) (len x)) l) /\
                 (forall a, ~ T a -> t0m a = p_mem s a)).
    { unfold t0m. destruct i.
      - destruct (copy_to_spec b l off (p_mem t) P) as [C1 C2].
        { intros x Hx a Ha Hr. apply (Asrc eq_refl x Hx a Ha). auto. }
        split.
        + intros _. rewrite C1. rewrite !flat_map_concat_map. f_equal. apply map_ext_in. intros y Hy. apply rdb_ext. intros a Ha. symmetry. apply M. apply (Asrc eq_refl y Hy a Ha).
        + intros a Ha. rewrite C2 by auto. symmetry. auto.
      - split; [discriminate|]. intros a Ha. symmetry. auto. }
    destruct T0 as [T01 T02].
    assert (R1 : exec_is ((if i then [copyin b off l] else []) ++ [merged i o ch b off l] ++ (if o then [copyout b off l] else [])) t
      = exec_is ([merged i o ch b off l] ++ (if o then [copyout b off l] else [])) (if i then mkP t0m (fun c => p_in t c) (fun c => p_out t c) else t)).
    { unfold t0m. destruct i; reflexivity. }
    rewrite R1. clear R1.
    set (t0 := if i then _ else t). assert (Et0 : p_mem t0 = t0m /\ (forall c, p_in t0 c = p_in s c) /\ (forall c, p_out t0 c = p_out s c)).
    { unfold t0, t0m. destruct i; simpl; repeat split; auto. } clearbody t0. destruct Et0 as (B1 & B2 & B3).
    cbn [app exec_is]. unfold exec_i at 1. unfold merged. cbn [uni i_in i_take i_out i_send i_write].
    destruct (ex (map (orig i o ch) l) s) as [s'|] eqn:Eo.
    - destruct (exec_par f_i f_rd f_wr (map (orig i o ch) l) s s' Fr O Eo) as [Pe Pi Po Pw Pn].
      destruct o.
      + specialize (Pe ch) as Pe'. rewrite need_orig, on_refl in Pe'. rewrite B2.
        destruct (Z.of_nat (length (p_in s ch)) <? tot l) eqn:Lt; [lia|].
        set (blk := firstn (bytes (tot l)) (p_in s ch)).
        assert (Lb : Z.of_nat (length blk) = tot l) by (unfold blk, bytes; rewrite firstn_length; lia).
        cbn [exec_is]. unfold exec_i. cbn [copyout i_in i_take i_out i_send i_write p_mem p_in p_out length]. change (Z.of_nat 0 <? 0) with false. cbv iota.
        cbn [SameRun].
        destruct (copy_from_spec b l off (mwrite (p_mem t0) (b + off) blk) P) as [C1 C2].
        { intros x Hx a Ha Hr. apply (Adst eq_refl x Hx a Ha). auto. }
        { apply (pairs_dst i ch). auto. }
        split; [|split]; cbn [p_mem p_in p_out].
        * intros a Ha.
          assert (Hdec : (exists l1 x l2, l = l1 ++ x :: l2 /\ region (dst x) (len x) a) \/ (forall x, In x l -> ~ region (dst x) (len x) a)).
          { clear. induction l as [|x l IH]; [right; auto|]. destruct (region_dec (dst x) (len x) a) as [r|r]; [left; exists [], x, l; auto|].
            destruct IH as [(l1 & y & l2 & -> & H)|H]; [left; exists (x :: l1), y, l2; auto|]. right. intros y [<-|Hy]; auto. }
          destruct Hdec as [(l1 & x & l2 & El & Hx)|Hno].
          -- rewrite (C1 l1 x l2 a El Hx).
             rewrite (Pw (map (orig i true ch) l1) (orig i true ch x) (map (orig i true ch) l2) a); [|rewrite El, map_app; auto|split; auto].
             change (gets f_i s (map (orig i true ch) l1) (orig i true ch x)) with (firstn (bytes (len x)) (skipn (bytes (need f_i ch (map (orig i true ch) l1))) (p_in s ch))).
             change (i_write (f_i (orig i true ch x))) with (fun (m : mem) bs => mwrite m (dst x) bs). cbv beta.
             assert (Hl1 : 0 <= tot l1 /\ 0 <= tot l2 /\ 0 <= len x /\ tot l = tot l1 + (len x + tot l2)).
             { unfold pos in P. rewrite El in P. apply Forall_app in P as [P1 P2]. inversion P2; subst. rewrite tot_app. simpl. pose proof (tot_nonneg l1 P1). pose proof (tot_nonneg l2 H2). lia. }
             unfold region in Hx.
             rewrite need_orig, on_refl. rewrite mwrite_in by (rewrite firstn_length, skipn_length; unfold bytes; lia).
             rewrite mwrite_in by lia. unfold blk, bytes. rewrite !nth_firstn' by lia. rewrite nth_skipn'. f_equal. lia.
          -- rewrite C2 by auto. rewrite mwrite_keep by (rewrite Lb; intros H; apply Ha; auto). rewrite B1, T02 by auto.
             apply Pn. intros x Hx Hw. apply in_map_iff in Hx as (y & E & Hy). subst x. destruct Hw as [_ Hw]. apply (Hno y Hy Hw).
        * intros c. rewrite Pi, need_orig. change (on c None) with false. cbv iota. rewrite B2. destruct (on c (Some ch)); auto.
        * intros c. rewrite Po, sends_orig. change (on c None) with false. cbv iota. rewrite B3, B1. destruct i.
          -- rewrite (T01 eq_refl). destruct (on c (Some ch)); auto. apply app_nil_r.
          -- simpl. apply app_nil_r.
      + change (Z.of_nat (length (@nil Z)) <? 0) with false. cbv iota. cbn [exec_is SameRun].
        split; [|split]; cbn [p_mem p_in p_out].
        * intros a Ha. rewrite B1, T02 by auto. apply Pn. intros x Hx Hw. apply in_map_iff in Hx as (y & <- & Hy). destruct Hw as [Hw _]. discriminate.
        * intros c. rewrite Pi, need_orig. simpl. auto.
        * intros c. rewrite Po, sends_orig. rewrite B3, B1. destruct i.
          -- rewrite (T01 eq_refl). destruct (on c (Some ch)); auto. apply app_nil_r.
          -- simpl. apply app_nil_r.
    - destruct (Z.of_nat (length match (if o then Some ch else None) with Some c => p_in t0 c | None => [] end) <? (if o then tot l else 0)) eqn:Lt; [exact Logic.I|].
      exfalso. destruct (exec_enough f_i f_rd f_wr (map (orig i o ch) l) s Fr) as [s' E']; [|unfold ex in Eo; congruence].
      intros c. rewrite need_orig. destruct (on c (if o then Some ch else None)) eqn:Ec; [|lia].
      apply on_some in Ec. destruct o; [|discriminate]. injection Ec as ->. rewrite B2 in Lt. lia.
  Qed.
End Fuse2.
