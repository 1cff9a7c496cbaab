(* The sweep over borders in calcAddReductions: groups at every point *)
From Coq Require Import ZArith List Bool Lia Permutation Sorted ZifyBool ZifyNat.
From Verif Require Import Base ListFacts Model_Space Spec_Space Model_RangeList Spec_RangeList Proof_RangeList
  Model_Partitioner Model_Group Model_Transition.
Import ListNotations.
Open Scope Z_scope.

Definition tf (x : trg) : Z := i0 (b_from (t_box x)).
Definition tt (x : trg) : Z := i0 (b_to (t_box x)).

(* entries with their number in the map *)
Fixpoint ann (rangeNo lastTask lastMapNo : Z) (l : list trg) : list (trg * Z) :=
  match l with
  | [] => []
  | ts :: l' =>
    let reset := negb (t_task ts =? lastTask) || negb (t_mapNo ts =? lastMapNo) in
    let rn := if reset then 0 else rangeNo in
    (ts, rn) :: ann (rn + 1) (if reset then t_task ts else lastTask) (if reset then t_mapNo ts else lastMapNo) l'
  end.
Definition bds (inp : bool) (a : trg * Z) : list border :=
  [mkBd (tf (fst a)) (t_task (fst a)) (snd a) (t_mapNo (fst a)) true inp;
   mkBd (tt (fst a)) (t_task (fst a)) (snd a) (t_mapNo (fst a)) false inp].

Lemma borders_ann inp l : forall r t m, borders_of inp r t m l = flat_map (bds inp) (ann r t m l).
Proof. induction l as [|x l IH]; intros r t m; simpl; auto. rewrite IH. reflexivity. Qed.

Lemma ann_fst l : forall r t m, map fst (ann r t m l) = l.
Proof. induction l as [|x l IH]; intros; simpl; f_equal; auto. Qed.

(* ranges of t containing x *)
Definition has (t x : Z) (a : trg) : bool := (t_task a =? t) && (tf a <=? x) && (x <? tt a).
Definition cov (l : list trg) (t x : Z) : Z := Z.of_nat (length (filter (has t x) l)).

Definition ncnt {A} (f : A -> bool) (l : list A) : Z := Z.of_nat (length (filter f l)).
Lemma ncnt_nil {A} (f : A -> bool) : ncnt f [] = 0. Proof. reflexivity. Qed.
Lemma ncnt_cons {A} (f : A -> bool) a l : ncnt f (a :: l) = (if f a then 1 else 0) + ncnt f l.
Proof. unfold ncnt. simpl. destruct (f a); simpl; lia. Qed.
Lemma ncnt_app {A} (f : A -> bool) a b : ncnt f (a ++ b) = ncnt f a + ncnt f b.
Proof. unfold ncnt. rewrite filter_app, app_length. lia. Qed.
Lemma ncnt_perm {A} (f : A -> bool) a b : Permutation a b -> ncnt f a = ncnt f b.
Proof. induction 1; rewrite ?ncnt_cons; try lia; auto. Qed.
Lemma ncnt_ext {A} (f g : A -> bool) l : (forall x, In x l -> f x = g x) -> ncnt f l = ncnt g l.
Proof.
  induction l as [|a l IH]; intros H; auto. rewrite !ncnt_cons. rewrite (H a) by (left; auto). rewrite IH; auto.
  intros; apply H; right; auto.
Qed.
Lemma ncnt_pos {A} (f : A -> bool) l : 0 <= ncnt f l. Proof. unfold ncnt. lia. Qed.
Lemma ncnt_zero {A} (f : A -> bool) l : (forall x, In x l -> f x = false) -> ncnt f l = 0.
Proof.
  induction l as [|a l IH]; intros H; auto. rewrite ncnt_cons. rewrite (H a) by (left; auto). rewrite IH; auto.
  intros; apply H; right; auto.
Qed.
Lemma ncnt_in {A} (f : A -> bool) l x : In x l -> f x = true -> 1 <= ncnt f l.
Proof.
  induction l as [|a l IH]; intros H E; [destruct H|]. destruct H as [->|H]; rewrite ncnt_cons.
  - rewrite E. pose proof (ncnt_pos f l). lia.
  - pose proof (IH H E). destruct (f a); lia.
Qed.
Lemma ncnt_le {A} (f g : A -> bool) l : (forall x, In x l -> f x = true -> g x = true) -> ncnt f l <= ncnt g l.
Proof.
  induction l as [|a l IH]; intros H; [rewrite !ncnt_nil; lia|]. rewrite !ncnt_cons.
  assert (f a = true -> g a = true) by (apply H; left; auto).
  assert (ncnt f l <= ncnt g l) by (apply IH; intros; apply H; auto; right; auto).
  destruct (f a), (g a); try lia; intuition discriminate.
Qed.
Lemma ncnt_one {A} (f : A -> bool) l x y : ncnt f l <= 1 -> In x l -> In y l -> f x = true -> f y = true -> x = y.
Proof.
  induction l as [|a l IH]; intros H Hx Hy Ex Ey; [destruct Hx|].
  destruct Hx as [->|Hx]; destruct Hy as [->|Hy]; auto; rewrite ncnt_cons in H.
  - rewrite Ex in H. pose proof (ncnt_in f l y Hy Ey). lia.
  - rewrite Ey in H. pose proof (ncnt_in f l x Hx Ex). lia.
  - apply IH; auto. destruct (f a); lia.
Qed.
Lemma ncnt_positive {A} (f : A -> bool) l : 1 <= ncnt f l -> exists x, In x l /\ f x = true.
Proof.
  induction l as [|a l IH]; intros H; [rewrite ncnt_nil in H; lia|]. rewrite ncnt_cons in H. destruct (f a) eqn:E.
  - exists a. split; [left|]; auto.
  - destruct IH as [x [X1 X2]]; [lia|]. exists x. split; [right|]; auto.
Qed.
Lemma ncnt_map {A B} (h : A -> B) (f : B -> bool) l : ncnt f (map h l) = ncnt (fun x => f (h x)) l.
Proof. induction l as [|a l IH]; auto. simpl. rewrite !ncnt_cons, IH. auto. Qed.

(* counting borders = counting ranges *)
Definition bsel (inp st : bool) (t : Z) (g : Z -> bool) (b : border) : bool :=
  eqb (bd_isInput b) inp && eqb (bd_isStart b) st && (bd_task b =? t) && g (bd_b b).

Lemma count_bds inp inp' st t g l : ncnt (bsel inp' st t g) (flat_map (bds inp) l) =
  if eqb inp inp' then ncnt (fun a => (t_task (fst a) =? t) && g (if st then tf (fst a) else tt (fst a))) l else 0.
Proof.
  induction l as [|a l IH]; [simpl; destruct (eqb inp inp'); auto|]. cbn [flat_map]. rewrite ncnt_app, IH. unfold bds. rewrite !ncnt_cons, !ncnt_nil.
  unfold bsel. simpl. destruct inp, inp', st; cbn [eqb andb]; rewrite ?ncnt_cons; try lia.
Qed.

Definition ble (a b : border) : Prop :=
  bd_b a < bd_b b \/ bd_b a = bd_b b /\ (bd_isStart a = true -> bd_isStart b = true).

Section Sweep.
  Variables fr tl : list trg.
  Let L (inp : bool) := if inp then fr else tl.
  Hypothesis Hpos : forall inp x, In x (L inp) -> tf x < tt x.
  Hypothesis Hone : forall inp t x, cov (L inp) t x <= 1.

  Definition allb : list border := borders_of true 0 (-1) (-1) fr ++ borders_of false 0 (-1) (-1) tl.
  Variable sl : list border.
  Hypothesis Hperm : Permutation allb sl.
  Hypothesis Hsort : StronglySorted ble sl.

  Lemma total inp st t g : ncnt (bsel inp st t g) sl =
    ncnt (fun a => (t_task a =? t) && g (if st then tf a else tt a)) (L inp).
  Proof.
    rewrite <- (ncnt_perm _ _ _ Hperm). unfold allb. rewrite ncnt_app, !borders_ann, !count_bds.
    unfold L. destruct inp; cbn [eqb].
    - rewrite Z.add_0_r. rewrite <- (ann_fst fr 0 (-1) (-1)) at 2. rewrite ncnt_map. reflexivity.
    - rewrite Z.add_0_l. rewrite <- (ann_fst tl 0 (-1) (-1)) at 2. rewrite ncnt_map. reflexivity.
  Qed.

  Lemma in_border b : In b sl -> exists a, In a (ann 0 (-1) (-1) (L (bd_isInput b))) /\
    bd_task b = t_task (fst a) /\ bd_rangeNo b = snd a /\ bd_mapNo b = t_mapNo (fst a) /\
    bd_b b = if bd_isStart b then tf (fst a) else tt (fst a).
  Proof.
    intros Hb. apply (Permutation_in _ (Permutation_sym Hperm)) in Hb. unfold allb in Hb. rewrite !borders_ann in Hb.
    apply in_app_or in Hb. destruct Hb as [Hb|Hb]; apply in_flat_map in Hb; destruct Hb as [a [A1 A2]]; exists a;
    destruct A2 as [<-|[<-|[]]]; simpl; unfold L; auto.
  Qed.
  Lemma border_in inp a st : In a (ann 0 (-1) (-1) (L inp)) ->
    In (mkBd (if st : bool then tf (fst a) else tt (fst a)) (t_task (fst a)) (snd a) (t_mapNo (fst a)) st inp) sl.
  Proof.
    intros Ha. apply (Permutation_in _ Hperm). unfold allb. rewrite !borders_ann. apply in_or_app.
    destruct inp; [left|right]; apply in_flat_map; exists a; (split; [exact Ha|]); destruct st; simpl; auto.
  Qed.
  Lemma ann_in inp a : In a (ann 0 (-1) (-1) (L inp)) -> In (fst a) (L inp).
  Proof. intros H. rewrite <- (ann_fst (L inp) 0 (-1) (-1)). apply in_map. auto. Qed.

  (* open ranges of t after the borders in P *)
  Definition cnt (inp : bool) (t : Z) (P : list border) : Z :=
    ncnt (bsel inp true t (fun _ => true)) P - ncnt (bsel inp false t (fun _ => true)) P.

  Lemma cnt_snoc inp t P e : cnt inp t (P ++ [e]) = cnt inp t P +
    (if eqb (bd_isInput e) inp && (bd_task e =? t) then (if bd_isStart e then 1 else -1) else 0).
  Proof.
    unfold cnt. rewrite !ncnt_app, !ncnt_cons, !ncnt_nil. unfold bsel.
    destruct e as [b tk r m st ip]; simpl. destruct ip, inp, st; cbn [eqb andb]; destruct (tk =? t); cbn [andb]; lia.
  Qed.

  Lemma sorted_mid P e R : sl = P ++ e :: R -> (forall b, In b P -> ble b e) /\ (forall b, In b R -> ble e b).
  Proof.
    intros E. rewrite E in Hsort. apply sorted_app_inv in Hsort. destruct Hsort as [_ [S2 S3]].
    split.
    - intros b Hb. apply S3; auto. left; auto.
    - inversion S2; subst. rewrite Forall_forall in H2. auto.
  Qed.

  (* arithmetic of counts *)
  Lemma count_end t p l : (forall x, In x l -> tf x < tt x) ->
    ncnt (fun a => (t_task a =? t) && (tf a <? p)) l = ncnt (fun a => (t_task a =? t) && (tt a <? p)) l + cov l t (p - 1).
  Proof.
    unfold cov. fold (ncnt (has t (p - 1)) l). induction l as [|a l IH]; intros H; auto. rewrite !ncnt_cons, IH by (intros; apply H; right; auto).
    specialize (H a (or_introl eq_refl)). unfold has. 
    destruct (t_task a =? t), (tf a <? p) eqn:E1, (tt a <? p) eqn:E2, (tf a <=? p - 1) eqn:E3, (p - 1 <? tt a) eqn:E4; simpl; lia.
  Qed.
  Lemma count_ends_at t p l : (forall x, In x l -> tf x < tt x) ->
    ncnt (fun a => (t_task a =? t) && (tt a =? p)) l <= cov l t (p - 1).
  Proof.
    intros H. apply ncnt_le. intros x Hx. specialize (H x Hx). unfold has. lia.
  Qed.
  Lemma count_start t p l : (forall x, In x l -> tf x < tt x) ->
    ncnt (fun a => (t_task a =? t) && (tf a <? p)) l = ncnt (fun a => (t_task a =? t) && (tt a <=? p)) l +
      (cov l t p - ncnt (fun a => (t_task a =? t) && (tf a =? p)) l).
  Proof.
    unfold cov. fold (ncnt (has t p) l). induction l as [|a l IH]; intros H; auto. rewrite !ncnt_cons, IH by (intros; apply H; right; auto).
    specialize (H a (or_introl eq_refl)). unfold has.
    destruct (t_task a =? t), (tf a <? p) eqn:E1, (tt a <=? p) eqn:E2, (tf a <=? p) eqn:E3, (p <? tt a) eqn:E4, (tf a =? p) eqn:E5; simpl; lia.
  Qed.
  Lemma count_starts_at t p l : (forall x, In x l -> tf x < tt x) ->
    ncnt (fun a => (t_task a =? t) && (tf a =? p)) l <= cov l t p.
  Proof. intros H. apply ncnt_le. intros x Hx. specialize (H x Hx). unfold has. lia. Qed.
  Lemma count_at t p l : (forall x, In x l -> tf x < tt x) ->
    ncnt (fun a => (t_task a =? t) && (tf a <=? p)) l = ncnt (fun a => (t_task a =? t) && (tt a <=? p)) l + cov l t p.
  Proof.
    unfold cov. fold (ncnt (has t p) l). induction l as [|a l IH]; intros H; auto. rewrite !ncnt_cons, IH by (intros; apply H; right; auto).
    specialize (H a (or_introl eq_refl)). unfold has.
    destruct (t_task a =? t), (tt a <=? p) eqn:E2, (tf a <=? p) eqn:E3, (p <? tt a) eqn:E4; simpl; lia.
  Qed.

  Lemma bsel_split inp st t p X : ncnt (bsel inp st t (fun _ => true)) X =
    ncnt (bsel inp st t (fun b => b <? p)) X + ncnt (bsel inp st t (fun b => b =? p)) X + ncnt (bsel inp st t (fun b => p <? b)) X.
  Proof.
    induction X as [|b X IH]; auto. rewrite !ncnt_cons, IH. unfold bsel.
    destruct (eqb (bd_isInput b) inp && eqb (bd_isStart b) st && (bd_task b =? t)); cbn [andb]; try lia.
    destruct (bd_b b <? p) eqn:E1, (bd_b b =? p) eqn:E2, (p <? bd_b b) eqn:E3; lia.
  Qed.

  (* before an end: exactly one range is open; before a start: none *)
  Lemma before P e R : sl = P ++ e :: R ->
    cnt (bd_isInput e) (bd_task e) P = if bd_isStart e then 0 else 1.
  Proof.
    intros E. destruct (sorted_mid P e R E) as [HP HR]. set (inp := bd_isInput e). set (t := bd_task e). set (p := bd_b e).
    assert (Es : forall f, ncnt f sl = ncnt f P + (if f e then 1 else 0) + ncnt f R).
    { intros f. rewrite E, ncnt_app, ncnt_cons. lia. }
    assert (He : forall st g, bsel inp st t g e = eqb (bd_isStart e) st && g p).
    { intros st g. unfold bsel, inp, t, p. rewrite eqb_reflx, Z.eqb_refl. destruct (eqb (bd_isStart e) st); auto. }
    pose proof (Hpos inp) as Hp. pose proof (Hone inp t) as H1.
    unfold cnt. rewrite (bsel_split inp true t p P), (bsel_split inp false t p P).
    (* nothing in P is behind p; nothing in R before *)
    assert (Z1 : forall st, ncnt (bsel inp st t (fun b => p <? b)) P = 0).
    { intros st. apply ncnt_zero. intros b Hb. specialize (HP b Hb). unfold bsel. unfold ble in HP. fold p in HP.
      destruct (p <? bd_b b) eqn:X; [lia|]. rewrite andb_false_r; auto. }
    assert (Z2 : forall st, ncnt (bsel inp st t (fun b => b <? p)) R = 0).
    { intros st. apply ncnt_zero. intros b Hb. specialize (HR b Hb). unfold bsel. unfold ble in HR. fold p in HR.
      destruct (bd_b b <? p) eqn:X; [lia|]. rewrite andb_false_r; auto. }
    assert (T1 : forall st, ncnt (bsel inp st t (fun b => b <? p)) P = ncnt (bsel inp st t (fun b => b <? p)) sl).
    { intros st. rewrite Es, Z2, He, Z.ltb_irrefl, andb_false_r. lia. }
    rewrite !Z1, !T1, !total.
    destruct (bd_isStart e) eqn:St.
    - (* a start *)
      assert (B1 : ncnt (bsel inp true t (fun b => b =? p)) P = 0).
      { pose proof (Es (bsel inp true t (fun b => b =? p))) as X. rewrite He, Z.eqb_refl in X. cbn [eqb andb] in X.
        rewrite total in X. pose proof (count_starts_at t p (L inp) Hp). pose proof (H1 p).
        pose proof (ncnt_pos (bsel inp true t (fun b => b =? p)) P). pose proof (ncnt_pos (bsel inp true t (fun b => b =? p)) R). lia. }
      assert (B2 : ncnt (bsel inp false t (fun b => b =? p)) P = ncnt (bsel inp false t (fun b => b =? p)) sl).
      { rewrite Es, He. cbn [eqb andb]. rewrite (ncnt_zero _ R); [lia|]. intros b Hb. specialize (HR b Hb). unfold ble in HR. fold p in HR. rewrite St in HR.
        unfold bsel. destruct (bd_isStart b); cbn [eqb]; [rewrite andb_false_r; auto|].
        destruct (bd_b b =? p) eqn:X; [destruct HR as [HR|[_ HR]]; [lia|specialize (HR eq_refl); discriminate]|]. rewrite andb_false_r; auto. }
      rewrite B1, B2, total.
      assert (B3 : 1 <= ncnt (fun a => (t_task a =? t) && (tf a =? p)) (L inp)).
      { pose proof (total inp true t (fun b => b =? p)) as X. cbn in X. rewrite <- X. apply (ncnt_in _ sl e).
        rewrite E; apply in_or_app; right; left; auto. rewrite He, Z.eqb_refl. auto. }
      pose proof (count_start t p (L inp) Hp). pose proof (count_starts_at t p (L inp) Hp). pose proof (H1 p).
      assert (B4 : ncnt (fun a => (t_task a =? t) && (tt a <=? p)) (L inp) =
        ncnt (fun a => (t_task a =? t) && (tt a <? p)) (L inp) + ncnt (fun a => (t_task a =? t) && (tt a =? p)) (L inp)).
      { clear. induction (L inp) as [|a l IH]; auto. rewrite !ncnt_cons, IH. destruct (t_task a =? t); cbn [andb]; try lia.
        destruct (tt a <=? p) eqn:A, (tt a <? p) eqn:B, (tt a =? p) eqn:C; lia. }
      lia.
    - assert (B1 : ncnt (bsel inp true t (fun b => b =? p)) P = 0).
      { apply ncnt_zero. intros b Hb. specialize (HP b Hb). unfold ble in HP. fold p in HP. rewrite St in HP. unfold bsel.
        destruct (bd_isStart b); cbn [eqb]; [|rewrite andb_false_r; auto].
        destruct (bd_b b =? p) eqn:X; [destruct HP as [HP|[_ HP]]; [lia|specialize (HP eq_refl); discriminate]|]. rewrite andb_false_r; auto. }
      assert (B2 : ncnt (bsel inp false t (fun b => b =? p)) P = 0).
      { pose proof (Es (bsel inp false t (fun b => b =? p))) as X. rewrite He, Z.eqb_refl in X. cbn [eqb andb] in X.
        rewrite total in X. pose proof (count_ends_at t p (L inp) Hp). pose proof (H1 (p - 1)).
        pose proof (ncnt_pos (bsel inp false t (fun b => b =? p)) P). pose proof (ncnt_pos (bsel inp false t (fun b => b =? p)) R). lia. }
      rewrite B1, B2.
      pose proof (count_end t p (L inp) Hp). pose proof (count_ends_at t p (L inp) Hp). pose proof (H1 (p - 1)).
      assert (B3 : 1 <= ncnt (fun a => (t_task a =? t) && (tt a =? p)) (L inp)).
      { pose proof (total inp false t (fun b => b =? p)) as X. cbn in X. rewrite <- X. apply (ncnt_in _ sl e).
        rewrite E; apply in_or_app; right; left; auto. rewrite He, Z.eqb_refl. auto. }
      lia.
  Qed.

  (* when all borders up to p are done *)
  Lemma at_gap P p R : sl = P ++ R -> (forall b, In b P -> bd_b b <= p) -> (forall b, In b R -> p < bd_b b) ->
    forall inp t, cnt inp t P = cov (L inp) t p.
  Proof.
    intros E HP HR inp t.
    assert (T : forall st, ncnt (bsel inp st t (fun _ => true)) P = ncnt (bsel inp st t (fun b => b <=? p)) sl).
    { intros st. rewrite E, ncnt_app. rewrite (ncnt_zero (bsel inp st t (fun b => b <=? p)) R).
      - rewrite Z.add_0_r. apply ncnt_ext. intros b Hb. unfold bsel. specialize (HP b Hb). destruct (bd_b b <=? p) eqn:X; [auto|lia].
      - intros b Hb. specialize (HR b Hb). unfold bsel. destruct (bd_b b <=? p) eqn:X; [lia|]. rewrite andb_false_r; auto. }
    unfold cnt. rewrite !T, !total. pose proof (count_at t p (L inp) (Hpos inp)). lia.
  Qed.

  Lemma at_end inp t : cnt inp t sl = 0.
  Proof.
    unfold cnt. rewrite !total. cbn. lia.
  Qed.
End Sweep.

(* task groups *)
Definition sset (g : list Z) : Prop := StronglySorted Z.lt g.

Lemma ins_task_ok g t : sset g -> ~ In t g -> exists g', ins_task g t = Some g' /\ sset g' /\ (forall x, In x g' <-> x = t \/ In x g) /\
  length g' = S (length g).
Proof.
  induction g as [|a g IH]; intros S H; simpl.
  - exists [t]. split; auto. split; [repeat constructor|]. split; [simpl; intuition|auto].
  - inversion S as [|? ? S' F]; subst. destruct (t <? a) eqn:E.
    + exists (t :: a :: g). split; auto. split; [|split; [simpl; intuition|auto]]. constructor; auto. constructor; [lia|].
      rewrite Forall_forall in *. intros x Hx. specialize (F x Hx). lia.
    + destruct (t =? a) eqn:E2; [exfalso; apply H; left; lia|].
      destruct IH as [g' [G1 [G2 [G3 G4]]]]; auto; [intros X; apply H; right; auto|].
      rewrite G1. simpl. exists (a :: g'). split; auto. split; [|split; [|simpl; lia]].
      * constructor; auto. rewrite Forall_forall in *. intros x Hx. apply G3 in Hx. destruct Hx as [->|Hx]; [lia|auto].
      * intros x. simpl. rewrite G3. intuition.
Qed.

Lemma rm_task_ok g t : sset g -> In t g -> exists g', rm_task g t = Some g' /\ sset g' /\ (forall x, In x g' <-> x <> t /\ In x g).
Proof.
  induction g as [|a g IH]; intros S H; [destruct H|].
  inversion S as [|? ? S' F]; subst. rewrite Forall_forall in F.
  destruct g as [|b g].
  - destruct H as [->|[]]. simpl. rewrite Z.ltb_irrefl. exists []. split; auto. split; [constructor|]. simpl. intros x. intuition.
  - assert (X : t <? a = false) by (destruct H as [->|H]; [lia|specialize (F t H); lia]).
    assert (E0 : rm_task (a :: b :: g) t = if t <? a then None else if t =? a then Some (b :: g) else option_map (cons a) (rm_task (b :: g) t)) by reflexivity.
    rewrite E0, X. destruct (t =? a) eqn:E2.
    + exists (b :: g). split; auto. split; auto. intros x. assert (t = a) by lia. subst a. split.
      * intros Hx. split; [specialize (F x Hx); lia|right; auto].
      * intros [Hx [->|Hy]]; [lia|auto].
    + destruct IH as [g' [G1 [G2 G3]]]; auto; [destruct H; [lia|auto]|]. rewrite G1. cbn [option_map]. exists (a :: g'). split; auto. split.
      * constructor; auto. apply Forall_forall. intros x Hx. apply G3 in Hx. apply F. tauto.
      * intros x. simpl. rewrite G3. simpl. intuition lia.
Qed.

Lemma sset_ext g h : sset g -> sset h -> (forall x, In x g <-> In x h) -> g = h.
Proof.
  intros S. revert h. induction S as [|a l S IH F]; intros l' S' H.
  - destruct l' as [|b l']; auto. exfalso. apply (H b). left; auto.
  - destruct S' as [|b l' S' F'].
    + exfalso. apply (H a). left; auto.
    + rewrite Forall_forall in F, F'. assert (a = b).
      { destruct (proj1 (H a) (or_introl eq_refl)) as [->|Ha]; auto. destruct (proj2 (H b) (or_introl eq_refl)) as [->|Hb]; auto.
        specialize (F _ Hb). specialize (F' _ Ha). lia. }
      subst b. f_equal. apply IH; auto. intros x. specialize (H x). simpl in H. split; intros Hx.
      * destruct (proj1 H (or_intror Hx)) as [->|]; auto. specialize (F _ Hx). lia.
      * destruct (proj2 H (or_intror Hx)) as [->|]; auto. specialize (F' _ Hx). lia.
Qed.
Lemma sset_NoDup g : sset g -> NoDup g.
Proof. induction 1 as [|a l S IH F]; constructor; auto. rewrite Forall_forall in F. intros H. specialize (F _ H). lia. Qed.
