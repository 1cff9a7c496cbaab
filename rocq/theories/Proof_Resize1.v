(* Lists, the sequence of worlds, and the memory of a group created from a parent *)
From Coq Require Import ZArith List Bool Lia ZifyBool ZifyNat Sorted Permutation.
From Verif Require Import Base Model_Space Model_RangeList Model_Partitioner Model_Resize Spec_Resize.
Import ListNotations.
Open Scope Z_scope.

Lemma setz_eq {A} (f : Z -> A) k v : setz f k v k = v. Proof. unfold setz. rewrite Z.eqb_refl. auto. Qed.
Lemma setz_ne {A} (f : Z -> A) k v x : x <> k -> setz f k v x = f x.
Proof. intros H. unfold setz. destruct (Z.eqb_spec x k); [lia|auto]. Qed.

Lemma zlen_app {A} (a b : list A) : zlen (a ++ b) = zlen a + zlen b.
Proof. unfold zlen. rewrite app_length. lia. Qed.
Lemma zlen_cons {A} (x : A) l : zlen (x :: l) = zlen l + 1.
Proof. unfold zlen. simpl. lia. Qed.
Lemma zlen_nil {A} : zlen (@nil A) = 0. Proof. reflexivity. Qed.
Lemma zlen_nonneg {A} (l : list A) : 0 <= zlen l. Proof. unfold zlen. lia. Qed.

(* total version of the loop rule *)
Lemma ofold_total {S X} (f : S -> X -> outcome S) (P : list X -> S -> Prop) l s0 :
  P [] s0 ->
  (forall pre x post s, l = pre ++ x :: post -> P pre s -> exists s', f s x = Ok s' /\ P (pre ++ [x]) s') ->
  exists s1, ofold f l s0 = Ok s1 /\ P l s1.
Proof.
  intros H0 Hs.
  assert (G : forall post pre s, l = pre ++ post -> P pre s -> exists s1, ofold f post s = Ok s1 /\ P l s1).
  { induction post; simpl; intros pre s El Hp.
    - exists s. rewrite app_nil_r in El. subst. auto.
    - destruct (Hs pre a post s El Hp) as (s' & E & Hp'). rewrite E. simpl.
      apply (IHpost (pre ++ [a])); auto. rewrite <- app_assoc. auto. }
  apply (G l [] s0); auto.
Qed.

Lemma zin_In x l : zin x l = true <-> In x l.
Proof.
  unfold zin. rewrite existsb_exists. split.
  - intros (y & H & E). apply Z.eqb_eq in E. subst. auto.
  - intros H. exists x. split; auto. apply Z.eqb_refl.
Qed.
Lemma zin_not x l : zin x l = false <-> ~ In x l.
Proof. rewrite <- zin_In. destruct (zin x l); split; intros; congruence. Qed.

(** zcount *)
Lemma zcount_in n x : In x (zcount n) <-> 0 <= x < n.
Proof.
  unfold zcount. rewrite in_map_iff. split.
  - intros (k & <- & H). apply in_seq in H. lia.
  - intros H. exists (Z.to_nat x). split; [lia|]. apply in_seq. lia.
Qed.
Lemma zcount_len n : zlen (zcount n) = Z.max 0 n.
Proof. unfold zlen, zcount. rewrite map_length, seq_length. lia. Qed.
Lemma zcount_nodup n : NoDup (zcount n).
Proof. unfold zcount. apply FinFun.Injective_map_NoDup; [intros a b; lia|apply seq_NoDup]. Qed.
Lemma zcount_S n : 0 <= n -> zcount (n + 1) = zcount n ++ [n].
Proof.
  intros H. unfold zcount. replace (Z.to_nat (n + 1)) with (S (Z.to_nat n)) by lia.
  rewrite seq_S, map_app. simpl. do 2 f_equal. lia.
Qed.
Lemma zfrom_S a k : 0 <= k -> zfrom a (k + 1) = zfrom a k ++ [a + k].
Proof. intros H. unfold zfrom. rewrite zcount_S by auto. rewrite map_app. auto. Qed.
Lemma zcount_plus n k : 0 <= n -> 0 <= k -> zcount (n + k) = zcount n ++ zfrom n k.
Proof.
  intros Hn Hk. revert k Hk. apply (natlike_ind (fun k => zcount (n + k) = zcount n ++ zfrom n k)).
  - rewrite Z.add_0_r. unfold zfrom. simpl. rewrite app_nil_r. auto.
  - intros k Hk IH. replace (n + Z.succ k) with ((n + k) + 1) by lia. rewrite zcount_S by lia.
    unfold Z.succ. rewrite zfrom_S by auto. rewrite IH, app_assoc. auto.
Qed.
Lemma zfrom_in a n x : In x (zfrom a n) <-> a <= x < a + n.
Proof.
  unfold zfrom. rewrite in_map_iff. split.
  - intros (k & <- & H). apply zcount_in in H. lia.
  - intros H. exists (x - a). split; [lia|]. apply zcount_in. lia.
Qed.
Lemma zfrom_len a n : zlen (zfrom a n) = Z.max 0 n.
Proof. unfold zfrom, zlen. rewrite map_length. apply zcount_len. Qed.

(** index_of *)

Lemma index_from_notin l x k : ~ In x l -> index_from k l x = -1.
Proof.
  revert k; induction l; simpl; intros k H; auto. destruct (Z.eqb_spec a x); [exfalso; auto|]. apply IHl. auto.
Qed.
Lemma index_from_app_in l l2 x k : In x l -> index_from k (l ++ l2) x = index_from k l x.
Proof.
  revert k; induction l; simpl; intros k H; [easy|]. destruct (Z.eqb_spec a x); auto. apply IHl. destruct H; [lia|auto].
Qed.
Lemma index_from_app_out l l2 x k : ~ In x l -> index_from k (l ++ l2) x = index_from (k + zlen l) l2 x.
Proof.
  revert k; induction l; simpl; intros k H.
  - rewrite zlen_nil, Z.add_0_r. auto.
  - destruct (Z.eqb_spec a x); [exfalso; auto|]. rewrite IHl by auto. rewrite zlen_cons. f_equal. lia.
Qed.
Lemma index_snoc_same l x : ~ In x l -> index_of (l ++ [x]) x = zlen l.
Proof. intros H. unfold index_of. rewrite index_from_app_out by auto. simpl. rewrite Z.eqb_refl. lia. Qed.
Lemma index_snoc_other l x y : x <> y -> index_of (l ++ [x]) y = index_of l y.
Proof.
  intros H. unfold index_of. destruct (in_dec Z.eq_dec y l) as [i|i].
  - apply index_from_app_in. auto.
  - rewrite index_from_app_out by auto. rewrite (index_from_notin l) by auto. simpl.
    destruct (Z.eqb_spec x y); [lia|auto].
Qed.
Lemma index_notin l x : ~ In x l -> index_of l x = -1.
Proof. apply index_from_notin. Qed.
Lemma index_from_in l x k : In x l -> k <= index_from k l x < k + zlen l /\ nth_error l (Z.to_nat (index_from k l x - k)) = Some x.
Proof.
  revert k; induction l; simpl; intros k H; [easy|]. rewrite zlen_cons. destruct (Z.eqb_spec a x).
  - replace (Z.to_nat (k - k)) with 0%nat by lia. simpl. pose proof (zlen_nonneg l). split; [lia|subst; auto].
  - destruct H as [H|H]; [lia|]. destruct (IHl (k + 1) H) as (B & N). split; [lia|].
    replace (Z.to_nat (index_from (k + 1) l x - k)) with (S (Z.to_nat (index_from (k + 1) l x - (k + 1)))) by lia.
    simpl. auto.
Qed.
Lemma index_in l x : In x l -> 0 <= index_of l x < zlen l /\ nth_error l (Z.to_nat (index_of l x)) = Some x.
Proof.
  intros H. destruct (index_from_in l x 0 H) as (B & N). unfold index_of. split; [lia|].
  rewrite Z.sub_0_r in N. auto.
Qed.

Lemma nth_snoc {A} (l : list A) x k y : nth_error (l ++ [x]) k = Some y ->
  (nth_error l k = Some y /\ (k < length l)%nat) \/ (k = length l /\ y = x).
Proof.
  intros H. destruct (lt_dec k (length l)) as [h|h].
  - rewrite nth_error_app1 in H by auto. auto.
  - rewrite nth_error_app2 in H by lia. right.
    destruct (k - length l)%nat eqn:E; simpl in H.
    + injection H as <-. split; [lia|auto].
    + destruct n; discriminate.
Qed.

(** The memory of a new group while it is filled: location IDs [L] are done, [fo]: part of the
    parent, [fn]: part of the new group *)
Section Build.
  Variables (fo fn : Z -> bool) (max : Z).
  Record Binv (L : list Z) (i1 i2 : Z) (mem : Z -> Z) : Prop := {
    bi_1 : i1 = zlen (filter fo L);
    bi_2 : i2 = zlen (filter fn L);
    bi_loc : forall r l, 0 <= r -> nth_error (filter fn L) (Z.to_nat r) = Some l -> mem r = l;
    bi_to : forall r l, 0 <= r -> nth_error (filter fn L) (Z.to_nat r) = Some l -> mem (2 * max + r) = index_of (filter fo L) l;
    bi_from : forall r l, 0 <= r -> nth_error (filter fo L) (Z.to_nat r) = Some l -> mem (max + r) = index_of (filter fn L) l }.

  Lemma binv_nil mem : Binv [] 0 0 mem.
  Proof. constructor; auto; simpl; intros r l _ H; destruct (Z.to_nat r); discriminate. Qed.

  Lemma filter_snoc (f : Z -> bool) L x : filter f (L ++ [x]) = if f x then filter f L ++ [x] else filter f L.
  Proof. rewrite filter_app. simpl. destruct (f x); auto. rewrite app_nil_r. auto. Qed.

  Lemma nth_len {A} (l : list A) k y : nth_error l k = Some y -> (k < length l)%nat.
  Proof. intros H. apply nth_error_Some. congruence. Qed.

  Lemma notin_filter (f : Z -> bool) L x : ~ In x L -> ~ In x (filter f L).
  Proof. intros H H2. apply filter_In in H2. tauto. Qed.
  Lemma in_ne (f : Z -> bool) L x k y : ~ In x L -> nth_error (filter f L) k = Some y -> x <> y.
  Proof. intros H H2 ->. apply nth_error_In in H2. apply filter_In in H2. tauto. Qed.

  Lemma binv_keep L i1 i2 mem x :
    Binv L i1 i2 mem -> ~ In x L -> fo x = true -> fn x = true -> i1 < max -> i2 < max ->
    Binv (L ++ [x]) (i1 + 1) (i2 + 1) (setz (setz (setz mem i2 x) (2 * max + i2) i1) (max + i1) i2).
  Proof.
    intros [H1 H2 Hl Ht Hf] Hx Eo En B1 B2.
    pose proof (zlen_nonneg (filter fo L)). pose proof (zlen_nonneg (filter fn L)).
    constructor; rewrite ?filter_snoc, ?Eo, ?En.
    - rewrite zlen_app. unfold zlen at 2. simpl. lia.
    - rewrite zlen_app. unfold zlen at 2. simpl. lia.
    - intros r l Hr N. apply nth_snoc in N. destruct N as [(N & B)|(N & ->)].
      + unfold zlen in *. rewrite !setz_ne by lia. eauto.
      + unfold zlen in *. assert (r = i2) by lia. subst r. rewrite !setz_ne by lia. apply setz_eq.
    - intros r l Hr N. apply nth_snoc in N. destruct N as [(N & B)|(N & ->)].
      + rewrite index_snoc_other by (eapply in_ne; eauto). unfold zlen in *. rewrite !setz_ne by lia. eauto.
      + rewrite index_snoc_same by (apply notin_filter; auto). unfold zlen in *. assert (r = i2) by lia. subst r.
        rewrite setz_ne by lia. rewrite setz_eq. lia.
    - intros r l Hr N. apply nth_snoc in N. destruct N as [(N & B)|(N & ->)].
      + rewrite index_snoc_other by (eapply in_ne; eauto). unfold zlen in *. rewrite !setz_ne by lia. eauto.
      + rewrite index_snoc_same by (apply notin_filter; auto). unfold zlen in *. assert (r = i1) by lia. subst r.
        rewrite setz_eq. lia.
  Qed.

  Lemma binv_add L i1 i2 mem x :
    Binv L i1 i2 mem -> ~ In x L -> fo x = false -> fn x = true -> i1 <= max -> i2 < max ->
    Binv (L ++ [x]) i1 (i2 + 1) (setz (setz mem i2 x) (2 * max + i2) (-1)).
  Proof.
    intros [H1 H2 Hl Ht Hf] Hx Eo En B1 B2.
    pose proof (zlen_nonneg (filter fo L)). pose proof (zlen_nonneg (filter fn L)).
    constructor; rewrite ?filter_snoc, ?Eo, ?En.
    - auto.
    - rewrite zlen_app. unfold zlen at 2. simpl. lia.
    - intros r l Hr N. apply nth_snoc in N. destruct N as [(N & B)|(N & ->)].
      + unfold zlen in *. rewrite !setz_ne by lia. eauto.
      + unfold zlen in *. assert (r = i2) by lia. subst r. rewrite !setz_ne by lia. apply setz_eq.
    - intros r l Hr N. apply nth_snoc in N. destruct N as [(N & B)|(N & ->)].
      + unfold zlen in *. rewrite !setz_ne by lia. eauto.
      + rewrite index_notin by (apply notin_filter; auto). unfold zlen in *. assert (r = i2) by lia. subst r.
        rewrite setz_eq. lia.
    - intros r l Hr N. pose proof (nth_len _ _ _ N).
      rewrite index_snoc_other by (eapply in_ne; eauto). unfold zlen in *. rewrite !setz_ne by lia. eauto.
  Qed.

  Lemma binv_drop L i1 i2 mem x :
    Binv L i1 i2 mem -> ~ In x L -> fo x = true -> fn x = false -> i1 < max -> i2 <= max ->
    Binv (L ++ [x]) (i1 + 1) i2 (setz mem (max + i1) (-1)).
  Proof.
    intros [H1 H2 Hl Ht Hf] Hx Eo En B1 B2.
    pose proof (zlen_nonneg (filter fo L)). pose proof (zlen_nonneg (filter fn L)).
    constructor; rewrite ?filter_snoc, ?Eo, ?En.
    - rewrite zlen_app. unfold zlen at 2. simpl. lia.
    - auto.
    - intros r l Hr N. pose proof (nth_len _ _ _ N). unfold zlen in *. rewrite !setz_ne by lia. eauto.
    - intros r l Hr N. pose proof (nth_len _ _ _ N).
      rewrite index_snoc_other by (eapply in_ne; eauto). unfold zlen in *. rewrite !setz_ne by lia. eauto.
    - intros r l Hr N. apply nth_snoc in N. destruct N as [(N & B)|(N & ->)].
      + unfold zlen in *. rewrite !setz_ne by lia. eauto.
      + rewrite index_notin by (apply notin_filter; auto). unfold zlen in *. assert (r = i1) by lia. subst r.
        rewrite setz_eq. lia.
  Qed.

  Lemma binv_skip L i1 i2 mem x : Binv L i1 i2 mem -> fo x = false -> fn x = false -> Binv (L ++ [x]) i1 i2 mem.
  Proof.
    intros [H1 H2 Hl Ht Hf] Eo En. constructor; rewrite ?filter_snoc, ?Eo, ?En; auto.
  Qed.
End Build.

Lemma filter_zlen_le (f : Z -> bool) L : zlen (filter f L) <= zlen L.
Proof. induction L; simpl; [unfold zlen; simpl; lia|]. destruct (f a); rewrite !zlen_cons; lia. Qed.

(** The sequence of worlds *)
Lemma world_after_snoc n log r : world_after n (log ++ [r]) = resized (world_after n log) r.
Proof. unfold world_after. rewrite fold_left_app. auto. Qed.

Lemma joins_app a b : joins (a ++ b) = joins a ++ joins b.
Proof. unfold joins. apply flat_map_app. Qed.
Lemma removals_app a b : removals (a ++ b) = removals a ++ removals b.
Proof. unfold removals. apply flat_map_app. Qed.

Lemma filter_true {A} (f : A -> bool) l : (forall x, In x l -> f x = true) -> filter f l = l.
Proof. induction l; simpl; intros H; auto. rewrite H by auto. f_equal. auto. Qed.
Lemma filter_false {A} (f : A -> bool) l : (forall x, In x l -> f x = false) -> filter f l = [].
Proof. induction l; simpl; intros H; auto. rewrite H by auto. auto. Qed.
Lemma filter_filter {A} (f g : A -> bool) l : filter f (filter g l) = filter (fun x => g x && f x) l.
Proof. induction l; simpl; auto. destruct (g a); simpl; [destruct (f a); rewrite IHl; auto|auto]. Qed.
Lemma filter_ext_in' {A} (f g : A -> bool) l : (forall x, In x l -> f x = g x) -> filter f l = filter g l.
Proof. intros H. apply filter_ext_in. auto. Qed.

(* a world lists its members in the order of location IDs *)
Lemma world_sorted n log : 0 <= n ->
  let w := world_after n log in 0 <= snd w /\ fst w = filter (fun x => zin x (fst w)) (zcount (snd w)).
Proof.
  intros Hn. induction log using rev_ind.
  - simpl. split; auto. rewrite filter_true; auto. intros x H. apply zin_In. auto.
  - rewrite world_after_snoc. destruct (world_after n log) as [w k]. simpl in *. destruct IHlog as (Hk & IH).
    pose proof (zlen_nonneg (joins x)). split; [lia|].
    rewrite zcount_plus by lia. rewrite filter_app. f_equal.
    + rewrite IH at 1. rewrite filter_filter. apply filter_ext_in'. intros y Hy. apply zcount_in in Hy.
      destruct (zin y w) eqn:E1, (zin y (removals x)) eqn:E2; simpl; symmetry.
      * apply zin_not. rewrite in_app_iff. intros [H1|H1].
        -- apply filter_In in H1. destruct H1 as (_ & H1). rewrite E2 in H1. discriminate.
        -- apply zfrom_in in H1. lia.
      * apply zin_In. apply in_app_iff. left. apply filter_In. split; [apply zin_In; auto|rewrite E2; auto].
      * apply zin_not. rewrite in_app_iff. intros [H1|H1].
        -- apply filter_In in H1. destruct H1 as (H1 & _). apply zin_In in H1. congruence.
        -- apply zfrom_in in H1. lia.
      * apply zin_not. rewrite in_app_iff. intros [H1|H1].
        -- apply filter_In in H1. destruct H1 as (H1 & _). apply zin_In in H1. congruence.
        -- apply zfrom_in in H1. lia.
    + symmetry. apply filter_true. intros y Hy. apply zin_In. apply in_app_iff. auto.
Qed.

Lemma world_bound n log x : 0 <= n -> In x (fst (world_after n log)) -> 0 <= x < snd (world_after n log).
Proof.
  intros Hn H. destruct (world_sorted n log Hn) as (_ & E). cbv zeta in E. rewrite E in H.
  apply filter_In in H. destruct H as (H & _). apply zcount_in in H. auto.
Qed.

Lemma world_nodup n log : 0 <= n -> NoDup (fst (world_after n log)).
Proof.
  intros Hn. destruct (world_sorted n log Hn) as (_ & E). cbv zeta in E. rewrite E. apply NoDup_filter. apply zcount_nodup.
Qed.

Lemma firstn_grow {A} (l : list A) r k : (k <= length l)%nat -> firstn k (l ++ r) = firstn k l.
Proof. intros H. rewrite firstn_app. replace (k - length l)%nat with 0%nat by lia. simpl. rewrite app_nil_r. auto. Qed.

Lemma world_at_grow n log r e : e <= zlen log -> world_at n (log ++ r) e = world_at n log e.
Proof. intros H. unfold world_at. rewrite firstn_grow; auto. unfold zlen in H. lia. Qed.
Lemma locations_at_grow n log r e : e <= zlen log -> locations_at n (log ++ r) e = locations_at n log e.
Proof. intros H. unfold locations_at. rewrite firstn_grow; auto. unfold zlen in H. lia. Qed.
Lemma world_at_end n log : world_at n log (zlen log) = fst (world_after n log).
Proof. unfold world_at, zlen. rewrite Nat2Z.id, firstn_all. auto. Qed.
Lemma locations_at_end n log : locations_at n log (zlen log) = snd (world_after n log).
Proof. unfold locations_at, zlen. rewrite Nat2Z.id, firstn_all. auto. Qed.

Lemma world_ok_grow n log r lid i : world_ok n log lid i -> world_ok n (log ++ r) lid i.
Proof.
  intros [H1 H2 H3 H4 H5 H6 H7]. pose proof (zlen_nonneg r).
  constructor; rewrite ?zlen_app, ?world_at_grow, ?locations_at_grow by lia; auto; try lia.
Qed.

Lemma world_ok_clear n log lid i : world_ok n log lid i -> world_ok n log lid (clear_parent i).
Proof. intros [H1 H2 H3 H4 H5 H6 H7]. constructor; auto. simpl. auto. Qed.
Lemma world_ok_phase n log lid i p : world_ok n log lid i -> world_ok n log lid (mkInst (i_epoch i) p (i_locations i) (i_world i)).
Proof. intros [H1 H2 H3 H4 H5 H6 H7]. constructor; auto. Qed.

Lemma group_locs_nth size mem r : 0 <= r < size -> nth_error (group_locs size mem) (Z.to_nat r) = Some (mem r).
Proof.
  intros H. unfold group_locs, zcount. rewrite map_map, nth_error_map, (nth_error_nth' _ O) by (rewrite seq_length; lia).
  simpl. rewrite seq_nth by lia. f_equal. f_equal. lia.
Qed.
Lemma group_locs_len size mem : zlen (group_locs size mem) = Z.max 0 size.
Proof. unfold group_locs, zlen. rewrite map_length. apply zcount_len. Qed.
Lemma nth_error_eq {A} (a b : list A) : (forall k, nth_error a k = nth_error b k) -> a = b.
Proof.
  revert b; induction a; destruct b; intros H; auto.
  - specialize (H O). discriminate.
  - specialize (H O). discriminate.
  - f_equal; [specialize (H O); simpl in H; congruence|]. apply IHa. intros k. specialize (H (S k)). auto.
Qed.
Lemma group_locs_eq size mem l : size = zlen l ->
  (forall r x, 0 <= r -> nth_error l (Z.to_nat r) = Some x -> mem r = x) -> group_locs size mem = l.
Proof.
  intros E H. apply nth_error_eq. intros k.
  destruct (lt_dec k (length l)) as [h|h].
  - destruct (nth_error l k) eqn:N; [|apply nth_error_None in N; lia].
    replace k with (Z.to_nat (Z.of_nat k)) at 1 by lia. rewrite group_locs_nth by (unfold zlen in E; lia).
    rewrite (H (Z.of_nat k) z); auto; [lia|]. rewrite Nat2Z.id. auto.
  - assert (length (group_locs size mem) = length l) as El.
    { pose proof (group_locs_len size mem) as G. unfold zlen in *. lia. }
    assert (N1 : nth_error (group_locs size mem) k = None) by (apply nth_error_None; lia).
    assert (N2 : nth_error l k = None) by (apply nth_error_None; lia). congruence.
Qed.
