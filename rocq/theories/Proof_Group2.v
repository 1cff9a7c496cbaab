(* Proofs about Model_Group: union of groups *)
From Coq Require Import ZArith List Bool Lia ZifyBool ZifyNat Permutation Sorted.
From Verif Require Import Base ListFacts Model_Space Spec_Space Model_RangeList Spec_RangeList Proof_RangeList
  Model_Partitioner Spec_Partitioner Proof_Partitioner2 Model_Group Spec_Group Proof_Group.
Import ListNotations.
Open Scope Z_scope.

(* locations in the order they are found *)
Fixpoint dd (last : Z) (l : list lididx) : list Z :=
  match l with
  | [] => []
  | x :: l' => if last =? li_lid x then dd last l' else li_lid x :: dd (li_lid x) l'
  end.
Definition lastof (l : list lididx) : Z := last (map li_lid l) (-1).

Lemma count_dd l : forall last, count_lids last l = Z.of_nat (length (dd last l)).
Proof. induction l as [|x l IH]; simpl; intros; auto. destruct (last =? li_lid x); auto. rewrite IH. simpl. lia. Qed.

Lemma dd_snoc l x : forall a, dd a (l ++ [x]) = dd a l ++
  (if last (map li_lid l) a =? li_lid x then [] else [li_lid x]).
Proof.
  induction l as [|y l IH]; simpl; intros a.
  - destruct (a =? li_lid x); auto.
  - assert (E : match map li_lid l with [] => li_lid y | _ :: _ => last (map li_lid l) a end = last (map li_lid l) (li_lid y)).
    { clear. generalize (map li_lid l). intros m. destruct m as [|z m]; auto.
      generalize a (li_lid y). intros u v. revert z. induction m as [|w m IHm]; intros z; [auto|apply IHm]. }
    rewrite E. destruct (a =? li_lid y) eqn:Ea; rewrite IH.
    + assert (a = li_lid y) by lia. subst. auto.
    + auto.
Qed.
Lemma lastof_snoc l x : lastof (l ++ [x]) = li_lid x.
Proof. unfold lastof. rewrite map_app. simpl. apply last_last. Qed.
Lemma dd_prefix l l' : forall a, exists r, dd a (l ++ l') = dd a l ++ r.
Proof.
  induction l as [|y l IH]; simpl; intros a; eauto. destruct (a =? li_lid y); auto.
  destruct (IH (li_lid y)) as [r E]. rewrite E. simpl. eauto.
Qed.

Lemma lid_le a b : lididx_cmp a b <= 0 <-> li_lid a <= li_lid b.
Proof. unfold lididx_cmp. lia. Qed.

Lemma dd_In l : forall a y, In y (dd a l) -> exists x, In x l /\ li_lid x = y.
Proof.
  induction l as [|x l IH]; simpl; intros a y H; [contradiction|]. destruct (a =? li_lid x).
  - destruct (IH _ _ H) as [z [Z1 Z2]]. eauto.
  - destruct H as [<-|H]; eauto. destruct (IH _ _ H) as [z [Z1 Z2]]. eauto.
Qed.
Lemma dd_covers l : forall a x, In x l -> li_lid x = a \/ In (li_lid x) (dd a l).
Proof.
  induction l as [|y l IH]; simpl; intros a x H; [contradiction|]. destruct (a =? li_lid y) eqn:E.
  - destruct H as [->|H]; [left; lia|]. auto.
  - right. destruct H as [->|H]; [left; auto|]. destruct (IH (li_lid y) x H) as [->|H']; simpl; auto.
Qed.
Lemma dd_sorted l : StronglySorted (fun a b => lididx_cmp a b <= 0) l -> forall a, (forall x, In x l -> a <= li_lid x) ->
  StronglySorted Z.lt (dd a l) /\ (forall y, In y (dd a l) -> a < y).
Proof.
  induction 1 as [|x l Hs IH Hf]; simpl; intros a Ha.
  - split; [constructor|intros y []].
  - assert (L : forall z, In z l -> li_lid x <= li_lid z).
    { rewrite Forall_forall in Hf. intros z Hz. apply lid_le. auto. }
    destruct (a =? li_lid x) eqn:E.
    + apply IH. intros z Hz. pose proof (L _ Hz). pose proof (Ha _ (or_introl eq_refl)). lia.
    + destruct (IH (li_lid x)) as [I1 I2]; auto. pose proof (Ha _ (or_introl eq_refl)). split.
      * constructor; auto. apply Forall_forall. auto.
      * intros y [<-|Hy]; [lia|]. specialize (I2 _ Hy). lia.
Qed.

(* one parent: entries with off <= idx < off + sz; D is the locations found *)
Record half (off sz lids : Z) (pre : list lididx) (D from to : list Z) : Prop := {
  h_lf : Z.of_nat (length from) = lids;
  h_lt : Z.of_nat (length to) = lids;
  h_in : forall x, In x pre -> off <= li_idx x < off + sz ->
    exists k, nth_error D k = Some (li_lid x) /\ nth_error from (Z.to_nat (li_idx x - off)) = Some (Z.of_nat k) /\
      nth_error to k = Some (li_idx x - off);
  h_to : forall k lid, nth_error D k = Some lid ->
    (exists x, In x pre /\ off <= li_idx x < off + sz /\ li_lid x = lid /\ nth_error to k = Some (li_idx x - off)) \/
    nth_error to k = Some (-1) /\ forall x, In x pre -> off <= li_idx x < off + sz -> li_lid x <> lid }.

Lemma half_new off sz lids pre D from to lid : half off sz lids pre D from to ->
  (forall x, In x pre -> li_lid x <> lid) -> Z.of_nat (length D) < lids ->
  half off sz lids pre (D ++ [lid]) from (upd (length D) (-1) to).
Proof.
  intros [A B C E] Hn Hd. constructor; auto.
  - rewrite upd_length; auto.
  - intros x Hx Hs. destruct (C x Hx Hs) as [k [K1 [K2 K3]]]. exists k.
    assert (k < length D)%nat by (apply nth_error_Some; congruence).
    split; [rewrite nth_error_app1; auto|]. split; auto. rewrite upd_nth.
    destruct (Nat.eqb (length D) k) eqn:E1; [lia|auto].
  - intros k l Hk. rewrite upd_nth. destruct (Nat.eqb (length D) k) eqn:E1.
    + apply Nat.eqb_eq in E1. subst k. rewrite nth_error_app2, Nat.sub_diag in Hk by lia. injection Hk as <-.
      right. destruct (length D <? length to)%nat eqn:E2; [|lia]. split; auto.
    + assert (k < length (D ++ [lid]))%nat by (apply nth_error_Some; congruence). rewrite app_length in H. simpl in H.
      rewrite nth_error_app1 in Hk by lia. apply E; auto.
Qed.

Lemma half_other off sz lids pre D from to x : half off sz lids pre D from to -> ~ (off <= li_idx x < off + sz) ->
  half off sz lids (pre ++ [x]) D from to.
Proof.
  intros [A B C E] Hn. constructor; auto.
  - intros y Hy Hs. apply in_app_or in Hy. destruct Hy as [Hy|[<-|[]]]; [auto|contradiction].
  - intros k l Hk. destruct (E k l Hk) as [[y [Y1 Y2]]|[E1 E2]].
    + left. exists y. split; [apply in_or_app; auto|auto].
    + right. split; auto. intros y Hy Hs. apply in_app_or in Hy. destruct Hy as [Hy|[<-|[]]]; auto.
Qed.

Lemma half_own off sz lids pre D from to x k : half off sz lids pre D from to -> off <= li_idx x < off + sz ->
  sz <= lids ->
  nth_error D k = Some (li_lid x) -> Z.of_nat k < lids -> NoDup D ->
  (forall y, In y pre -> off <= li_idx y < off + sz -> li_idx y <> li_idx x /\ li_lid y <> li_lid x) ->
  half off sz lids (pre ++ [x]) D (upd (Z.to_nat (li_idx x - off)) (Z.of_nat k) from) (upd k (li_idx x - off) to).
Proof.
  intros [A B C E] Hs Hz Hk Hkl ND Hn. constructor; rewrite ?upd_length; auto.
  - intros y Hy Hsy. apply in_app_or in Hy. destruct Hy as [Hy|[<-|[]]].
    + destruct (C y Hy Hsy) as [j [J1 [J2 J3]]]. exists j. split; auto. destruct (Hn y Hy Hsy) as [N1 N2]. rewrite !upd_nth.
      destruct (Nat.eqb (Z.to_nat (li_idx x - off)) (Z.to_nat (li_idx y - off))) eqn:E1; [lia|].
      destruct (Nat.eqb k j) eqn:E2; [|auto]. apply Nat.eqb_eq in E2. subst. congruence.
    + exists k. split; auto. rewrite !upd_nth, !Nat.eqb_refl.
      destruct (Z.to_nat (li_idx x - off) <? length from)%nat eqn:E1; [|lia].
      destruct (k <? length to)%nat eqn:E2; [|lia]. auto.
  - intros j l Hj. rewrite upd_nth. destruct (Nat.eqb k j) eqn:E1.
    + apply Nat.eqb_eq in E1. subst j. assert (l = li_lid x) by congruence. subst l.
      destruct (k <? length to)%nat eqn:E2; [|lia]. left. exists x. split; [apply in_elt|]. auto.
    + destruct (E j l Hj) as [[y [Y1 [Y2 [Y3 Y4]]]]|[F1 F2]].
      * left. exists y. split; [apply in_or_app; auto|auto].
      * right. split; auto. intros y Hy Hsy. apply in_app_or in Hy. destruct Hy as [Hy|[<-|[]]]; auto.
        intros Eq. rewrite <- Eq in Hj. assert (k = j) by (eapply NoDup_nth_error_inj; eauto). lia.
Qed.

Record uinv (myloc s1 s2 lids : Z) (pre : list lididx) (D : list Z) (s : ustate) : Prop := {
  u_gi : us_gi s = Z.of_nat (length D) - 1;
  u_last : us_last s = lastof pre;
  u_ll : Z.of_nat (length (us_loc s)) = lids;
  u_loc : forall k, (k < length D)%nat -> nth_error (us_loc s) k = nth_error D k;
  u_my : (exists k, nth_error D k = Some myloc /\ us_my s = Z.of_nat k) \/ us_my s = -1 /\ ~ In myloc D;
  u_1 : half 0 s1 lids pre D (us_from1 s) (us_to1 s);
  u_2 : half s1 s2 lids pre D (us_from2 s) (us_to2 s) }.

Lemma union_new_ok myloc s1 s2 lids pre s x :
  uinv myloc s1 s2 lids pre (dd (-1) pre) s -> 0 <= li_lid x ->
  StronglySorted (fun a b => lididx_cmp a b <= 0) (pre ++ [x]) ->
  Z.of_nat (length (dd (-1) (pre ++ [x]))) <= lids ->
  exists s', union_new myloc s x = Ok s' /\
    us_last s' = li_lid x /\ 0 <= us_gi s' /\
    uinv myloc s1 s2 lids pre (dd (-1) (pre ++ [x])) (mkUst (us_gi s') (lastof pre) (us_my s') (us_loc s') (us_to1 s') (us_from1 s') (us_to2 s') (us_from2 s')) /\
    nth_error (dd (-1) (pre ++ [x])) (Z.to_nat (us_gi s')) = Some (li_lid x).
Proof.
  intros I Hx Hs Hl. unfold union_new. rewrite (u_last _ _ _ _ _ _ _ I).
  assert (Ed : dd (-1) (pre ++ [x]) = dd (-1) pre ++ (if lastof pre =? li_lid x then [] else [li_lid x])) by apply dd_snoc.
  rewrite Ed in *. destruct (lastof pre =? li_lid x) eqn:E.
  - rewrite app_nil_r in *. exists s. split; auto.
    assert (NE : pre <> []) by (intros ->; unfold lastof in E; simpl in E; lia).
    assert (Gi : 0 <= us_gi s /\ nth_error (dd (-1) pre) (Z.to_nat (us_gi s)) = Some (li_lid x)).
    { clear - I E NE Hx. rewrite (u_gi _ _ _ _ _ _ _ I). clear I.
      assert (G : forall l a, l <> [] -> last (map li_lid l) (-1) = li_lid x -> 
         (a = li_lid x /\ dd a l = [] \/ dd a l <> [] /\ last (dd a l) (-1) = li_lid x) ).
      { induction l as [|y l IH]; intros a N L; [congruence|]. simpl in L. simpl.
        destruct l as [|z l'].
        - simpl in L. simpl. destruct (a =? li_lid y) eqn:E1; [left; split; auto; lia|right; split; [discriminate|auto]].
        - assert (N' : z :: l' <> []) by discriminate. specialize (fun a => IH a N' L).
          set (l := z :: l') in *. clearbody l.
          destruct (a =? li_lid y) eqn:E1; [apply IH|].
          right. split; [discriminate|]. destruct (IH (li_lid y)) as [[I1 I2]|[I1 I2]].
          + rewrite I2. auto.
          + simpl. destruct (dd (li_lid y) l); [congruence|auto]. }
      apply Z.eqb_eq in E. destruct (G pre (-1) NE E) as [[G1 G2]|[G1 G2]]; [lia|].
      destruct (exists_last G1) as [l' [y Ey]]. rewrite Ey in G2 |- *. rewrite last_last in G2. subst y.
      rewrite app_length. simpl. split; [lia|]. rewrite nth_error_app2 by lia.
      replace (Z.to_nat (Z.of_nat (length l' + 1) - 1) - length l')%nat with 0%nat by lia. auto. }
    split; [rewrite (u_last _ _ _ _ _ _ _ I); lia|]. split; [tauto|]. split; [|tauto].
    destruct I. constructor; auto.
  - rewrite app_length in Hl. simpl in Hl.
    assert (Hn : forall y, In y pre -> li_lid y <> li_lid x).
    { intros y Hy Eq. apply sorted_app_inv in Hs. destruct Hs as [Hs1 [_ Hs2]].
      destruct (in_split y pre Hy) as [pa [pb ->]].
      assert (Lx : li_lid y = lastof (pa ++ y :: pb)).
      { destruct (list_eq_dec (fun a b : lididx => ltac:(repeat decide equality)) pb []) as [->|N].
        - rewrite lastof_snoc. auto.
        - destruct (exists_last N) as [pc [z ->]]. replace (pa ++ y :: pc ++ [z]) with ((pa ++ y :: pc) ++ [z]) by (rewrite <- app_assoc; auto).
          rewrite lastof_snoc. apply sorted_app_inv in Hs1. destruct Hs1 as [_ [Hs1 _]].
          inversion Hs1; subst. rewrite Forall_forall in H2. specialize (H2 z (in_elt _ _ _)). apply lid_le in H2.
          assert (li_lid z <= li_lid x); [|lia]. apply lid_le. apply Hs2; [|left; auto].
          apply in_or_app. right. right. apply in_elt. }
      lia. }
    assert (L1 : us_gi s + 1 = Z.of_nat (length (dd (-1) pre))) by (rewrite (u_gi _ _ _ _ _ _ _ I); lia).
    pose proof (u_ll _ _ _ _ _ _ _ I) as Ul. pose proof (h_lt _ _ _ _ _ _ _ (u_1 _ _ _ _ _ _ _ I)) as Ut1.
    pose proof (h_lt _ _ _ _ _ _ _ (u_2 _ _ _ _ _ _ _ I)) as Ut2.
    rewrite L1. rewrite awrite_ok by lia. simpl. rewrite awrite_ok by lia. simpl. rewrite awrite_ok by lia. simpl.
    eexists. split; [reflexivity|]. simpl. rewrite Nat2Z.id. split; auto. split; [lia|]. split.
    2:{ rewrite nth_error_app2, Nat.sub_diag by lia. auto. }
    constructor; simpl; auto.
    + rewrite app_length. simpl. lia.
    + rewrite upd_length. auto.
    + intros k Hk. rewrite app_length in Hk. simpl in Hk. rewrite upd_nth.
      destruct (Nat.eqb (length (dd (-1) pre)) k) eqn:E1.
      * apply Nat.eqb_eq in E1. subst k. rewrite nth_error_app2, Nat.sub_diag by lia.
        destruct (length (dd (-1) pre) <? length (us_loc s))%nat eqn:E2; [auto|lia].
      * rewrite nth_error_app1 by lia. apply I. lia.
    + destruct (myloc =? li_lid x) eqn:E1.
      * left. exists (length (dd (-1) pre)). rewrite nth_error_app2, Nat.sub_diag by lia. simpl. split; auto. f_equal; lia.
      * destruct (u_my _ _ _ _ _ _ _ I) as [[k [K1 K2]]|[K1 K2]].
        -- left. exists k. rewrite nth_error_app1 by (apply nth_error_Some; congruence). auto.
        -- right. split; auto. intros H. apply in_app_or in H. destruct H as [H|[H|[]]]; auto. lia.
    + apply half_new; auto; [apply I|lia].
    + apply half_new; auto; [apply I|lia].
Qed.

Lemma union_step_ok myloc s1 s2 lids pre s x post :
  uinv myloc s1 s2 lids pre (dd (-1) pre) s -> 0 <= li_lid x ->
  StronglySorted (fun a b => lididx_cmp a b <= 0) (pre ++ x :: post) ->
  Z.of_nat (length (dd (-1) (pre ++ x :: post))) <= lids -> 0 <= s1 <= lids -> s2 <= lids ->
  0 <= li_idx x < s1 + s2 -> (forall y, In y pre -> 0 <= li_lid y) ->
  (forall y, In y pre -> li_idx y <> li_idx x /\ (li_lid y = li_lid x -> (li_idx y < s1 <-> ~ (li_idx x < s1)))) ->
  exists s', union_step myloc s1 s x = Ok s' /\ uinv myloc s1 s2 lids (pre ++ [x]) (dd (-1) (pre ++ [x])) s'.
Proof.
  intros I Hx Hs Hl H1 H2 Hi Hp Hn.
  assert (Hs' : StronglySorted (fun a b => lididx_cmp a b <= 0) (pre ++ [x])).
  { replace (pre ++ x :: post) with ((pre ++ [x]) ++ post) in Hs by (rewrite <- app_assoc; auto). apply sorted_app_inv in Hs. tauto. }
  assert (Hl' : Z.of_nat (length (dd (-1) (pre ++ [x]))) <= lids).
  { replace (pre ++ x :: post) with ((pre ++ [x]) ++ post) in Hl by (rewrite <- app_assoc; auto).
    destruct (dd_prefix (pre ++ [x]) post (-1)) as [r E]. rewrite E, app_length in Hl. lia. }
  destruct (union_new_ok _ _ _ _ _ _ _ I Hx Hs' Hl') as [s' [E1 [E2 [E3 [I' E4]]]]].
  unfold union_step. rewrite E1. simpl.
  set (D := dd (-1) (pre ++ [x])) in *.
  assert (ND : NoDup D).
  { assert (SD : StronglySorted Z.lt D).
    { unfold D. apply dd_sorted; auto. intros y Hy. apply in_app_or in Hy. destruct Hy as [Hy|[<-|[]]]; [specialize (Hp _ Hy)|]; lia. }
    clear -SD. induction SD; constructor; auto. rewrite Forall_forall in H. intros C. specialize (H _ C). lia. }
  assert (Lg : us_gi s' < Z.of_nat (length D)).
  { assert (Z.to_nat (us_gi s') < length D)%nat by (apply nth_error_Some; congruence). lia. }
  pose proof (h_lf _ _ _ _ _ _ _ (u_1 _ _ _ _ _ _ _ I')) as Lf1. pose proof (h_lt _ _ _ _ _ _ _ (u_1 _ _ _ _ _ _ _ I')) as Lt1.
  pose proof (h_lf _ _ _ _ _ _ _ (u_2 _ _ _ _ _ _ _ I')) as Lf2. pose proof (h_lt _ _ _ _ _ _ _ (u_2 _ _ _ _ _ _ _ I')) as Lt2.
  simpl in Lf1, Lt1, Lf2, Lt2.
  destruct (li_idx x <? s1) eqn:Es.
  - rewrite awrite_ok by lia. simpl. rewrite awrite_ok by lia. simpl. eexists. split; [reflexivity|].
    constructor; simpl.
    + exact (u_gi _ _ _ _ _ _ _ I').
    + rewrite lastof_snoc. auto.
    + exact (u_ll _ _ _ _ _ _ _ I').
    + exact (u_loc _ _ _ _ _ _ _ I').
    + exact (u_my _ _ _ _ _ _ _ I').
    + pose proof (half_own 0 s1 lids pre D _ _ x (Z.to_nat (us_gi s')) (u_1 _ _ _ _ _ _ _ I') ltac:(lia) ltac:(lia) E4 ltac:(lia) ND) as H.
      rewrite Z2Nat.id, Z.sub_0_r in H by lia. apply H. intros y Hy Hys. destruct (Hn y Hy) as [N1 N2]. split; auto.
      intros C. specialize (N2 C). lia.
    + apply half_other; [exact (u_2 _ _ _ _ _ _ _ I')|lia].
  - rewrite awrite_ok by lia. simpl. rewrite awrite_ok by lia. simpl. eexists. split; [reflexivity|].
    constructor; simpl.
    + exact (u_gi _ _ _ _ _ _ _ I').
    + rewrite lastof_snoc. auto.
    + exact (u_ll _ _ _ _ _ _ _ I').
    + exact (u_loc _ _ _ _ _ _ _ I').
    + exact (u_my _ _ _ _ _ _ _ I').
    + apply half_other; [exact (u_1 _ _ _ _ _ _ _ I')|lia].
    + pose proof (half_own s1 s2 lids pre D _ _ x (Z.to_nat (us_gi s')) (u_2 _ _ _ _ _ _ _ I') ltac:(lia) ltac:(lia) E4 ltac:(lia) ND) as H.
      rewrite Z2Nat.id in H by lia. apply H. intros y Hy Hys. destruct (Hn y Hy) as [N1 N2]. split; auto.
      intros C. specialize (N2 C). lia.
Qed.
