(* Reductions which do not depend on the order; whole sequences. *)
From Coq Require Import ZArith List Bool Lia ZifyBool ZifyNat Sorted Permutation.
From Verif Require Import Base Model_Space Model_Mem Model_Type Model_Transition Model_Action Model_ActionTrans Model_ActionExec Model_ActionExec2 Model_Net.
From Verif Require Import Spec_Type Spec_Action Spec_ActionTrans Spec_Async Spec_Net Spec_Reduce.
From Verif Require Import Proof_Type Proof_Type2 Prop_Type Proof_Comb3 Proof_Comb4 Proof_Comb5 Proof_Reduce1 Proof_Reduce2 Proof_Reduce3.
Import ListNotations.
Open Scope Z_scope.

Lemma first_me_perm p g : NoDup g -> Permutation (first_me p g) g.
Proof.
  intros H. unfold first_me. change (existsb (fun x => x =? p) g) with (memb p g). destruct (memb p g) eqn:E; auto. apply memb_in in E. fold (others p g).
  apply NoDup_Permutation; auto.
  - constructor; [rewrite others_in; tauto|apply others_nodup; auto].
  - intros x. cbn [In]. rewrite others_in. destruct (Z.eq_dec x p) as [->|]; intuition congruence.
Qed.

Section Perm.
  Variables (T : dtype) (es : Z) (r : redop) (c : Z).
  Hypothesis szd : Sized T es r c.
  Hypothesis ac : AssocComm T es r c.
  Let okl (v : list Z) := Z.of_nat (length v) = c * es.
  Notation f := (dt_red T r c).

  Lemma red_ok a b : okl a -> okl b -> okl (f a b).
  Proof. intros A B. destruct szd as [_ S]. apply S; auto. Qed.
  Lemma fold_out vs : Forall okl vs -> forall a b, okl a -> okl b -> fold_left f vs (f a b) = f a (fold_left f vs b).
  Proof.
    induction 1 as [|v vs Hv Hvs IH]; intros a b Ha Hb; auto. cbn [fold_left].
    destruct (ac a b v Ha Hb Hv) as [E _]. rewrite E. apply IH; auto. apply red_ok; auto.
  Qed.
  Lemma fold_okl vs : Forall okl vs -> forall a, okl a -> okl (fold_left f vs a).
  Proof. induction 1; intros a Ha; auto. cbn [fold_left]. apply IHForall. apply red_ok; auto. Qed.
  Lemma reduce_cons v w vs : okl v -> okl w -> Forall okl vs -> reduce_all T r c (v :: w :: vs) = f v (reduce_all T r c (w :: vs)).
  Proof. intros Hv Hw H. cbn [reduce_all fold_left]. apply fold_out; auto. Qed.
  Lemma reduce_okl l : Forall okl l -> okl (reduce_all T r c l).
  Proof. intros H. destruct l as [|v vs]; [destruct szd as [S _]; exact S|]. inversion H; subst. apply fold_okl; auto. Qed.

  Lemma reduce_perm l l' : Permutation l l' -> Forall okl l -> reduce_all T r c l = reduce_all T r c l'.
  Proof.
    induction 1 as [|x l l' P IH|x y l|l1 l2 l3 P1 IH1 P2 IH2]; intros H; auto.
    - inversion H as [|? ? Hx Hl]; subst. specialize (IH Hl).
      destruct l as [|a l]; [apply Permutation_nil in P; subst; auto|]. destruct l' as [|b l']; [apply Permutation_sym, Permutation_nil in P; discriminate|].
      assert (Hl' : Forall okl (b :: l')) by (eapply Permutation_Forall; eauto).
      inversion Hl; subst. inversion Hl'; subst. rewrite !reduce_cons by auto. f_equal. exact IH.
    - inversion H as [|? ? Hy H1]; subst. inversion H1 as [|? ? Hx Hl]; subst. cbn [reduce_all fold_left].
      destruct (ac y x y Hy Hx Hy) as [_ E]. rewrite E. auto.
    - rewrite IH1; auto. apply IH2. eapply Permutation_Forall; eauto.
  Qed.
End Perm.

(* ---- integer types ---- *)
Definition chunk (sz : nat) (l : list Z) (i : Z) : list Z := mread (mwrite (fun _ => 0) 0 l) (i * Z.of_nat sz) sz.
Lemma chunk_ext sz c a b : (0 < sz)%nat -> Z.of_nat (length a) = c * Z.of_nat sz -> Z.of_nat (length b) = c * Z.of_nat sz ->
  (forall i, 0 <= i < c -> chunk sz a i = chunk sz b i) -> a = b.
Proof.
  intros Hs Ha Hb H. apply nth_ext with (d := 0) (d' := 0); [lia|]. intros k Hk.
  assert (Hi : 0 <= Z.of_nat k / Z.of_nat sz < c) by (split; [apply Z.div_pos; [lia|]; clear - Hs; lia|apply Z.div_lt_upper_bound; [clear - Hs; lia|]; rewrite (Z.mul_comm _ c), <- Ha; clear - Hk; lia]).
  specialize (H _ Hi). assert (Hm := Z.mod_pos_bound (Z.of_nat k) (Z.of_nat sz) ltac:(lia)).
  assert (Hd := Z.div_mod (Z.of_nat k) (Z.of_nat sz) ltac:(lia)).
  apply (f_equal (fun l => nth (Z.to_nat (Z.of_nat k mod Z.of_nat sz)) l 0)) in H. unfold chunk in H. rewrite !mread_nth in H by lia.
  replace (Z.of_nat k / Z.of_nat sz * Z.of_nat sz + Z.of_nat (Z.to_nat (Z.of_nat k mod Z.of_nat sz))) with (Z.of_nat k) in H by lia.
  rewrite !mwrite_in in H by lia. rewrite Z.sub_0_r, Nat2Z.id in H. exact H.
Qed.
Lemma chunk_rdb sz m c i : 0 <= i < c -> chunk sz (rdb m 0 (c * Z.of_nat sz)) i = mread m (i * Z.of_nat sz) sz.
Proof.
  intros Hi. unfold chunk. apply nth_ext with (d := 0) (d' := 0); [rewrite !mread_length; auto|]. intros k Hk. rewrite mread_length in Hk.
  assert (L : Z.of_nat (length (rdb m 0 (c * Z.of_nat sz))) = c * Z.of_nat sz) by (apply rdb_len; nia).
  rewrite !mread_nth, mwrite_in by (auto; nia). unfold rdb. rewrite mread_nth; [f_equal; nia|]. unfold bytes. nia.
Qed.


Lemma it_size_pos T : IntType T -> (0 < it_size T)%nat.
Proof. intros H. itype_cases H; simpl; lia. Qed.

Section Int.
  Variables (T : itype) (o : redop) (f : Z -> Z -> outcome Z) (c : Z).
  Hypothesis IT : IntType T.
  Hypothesis Ef : it_op T o = Some f.
  Hypothesis Tot : TotalOp T o.
  Hypothesis c0 : 0 <= c.
  Let sz := it_size T.
  Definition ev (l : list Z) (i : Z) : Z := it_load T (chunk sz l i).
  Lemma ev_fits l i : Fits T (ev l i).
  Proof. apply load_fits; auto. Qed.

  Lemma op_total a b : Fits T a -> Fits T b -> exists x, f a b = Ok x /\ Fits T x.
  Proof.
    intros Fa Fb. destruct (C38_order_total T o f (Node (Leaf a) (Leaf b)) IT Ef) as (x & E & F); [repeat constructor; auto|exact Tot|].
    exists x. split; auto.
  Qed.

  Lemma red_chunk a b : Z.of_nat (length a) = c * Z.of_nat sz -> Z.of_nat (length b) = c * Z.of_nat sz ->
    Z.of_nat (length (dt_red (int_dt T) o c a b)) = c * Z.of_nat sz /\
    forall i v, 0 <= i < c -> f (ev a i) (ev b i) = Ok v -> chunk sz (dt_red (int_dt T) o c a b) i = it_store T v.
  Proof.
    intros La Lb. cbn [int_dt dt_red]. unfold bytes_red. fold sz. set (m := mwrite (mwrite (fun _ => 0) 0 a) (c * Z.of_nat sz) b).
    assert (E1 : forall i, 0 <= i < c -> it_load T (mread m (0 + i * Z.of_nat sz) sz) = ev a i).
    { intros i Hi. unfold ev, chunk. f_equal. apply mread_ext. intros x Hx. unfold m. rewrite mwrite_out; [reflexivity|]. left. nia. }
    assert (E2 : forall i, 0 <= i < c -> it_load T (mread m (c * Z.of_nat sz + i * Z.of_nat sz) sz) = ev b i).
    { intros i Hi. unfold ev, chunk. f_equal. apply nth_ext with (d := 0) (d' := 0); [rewrite !mread_length; auto|]. intros k Hk. rewrite mread_length in Hk.
      rewrite !mread_nth by auto. unfold m. rewrite !mwrite_in by nia. f_equal. nia. }
    destruct (red_loop_ok sz (it_load T) (it_store T) f (store_length T) (Z.to_nat c) m 0 0 (c * Z.of_nat sz)) as (m' & R & _ & Hm).
    - left. auto.
    - right. left. nia.
    - intros i Hi. destruct (op_total (it_load T (mread m (0 + i * Z.of_nat sz) sz)) (it_load T (mread m (c * Z.of_nat sz + i * Z.of_nat sz) sz))) as (x & Ex & _); try apply load_fits; eauto.
    - unfold it_reduce, gen_reduce. rewrite Ef. fold sz. rewrite R. split; [apply rdb_len; nia|].
      intros i v Hi Hv. rewrite chunk_rdb by auto. change (mread m' (i * Z.of_nat sz) sz) with (mread m' (0 + i * Z.of_nat sz) sz). apply Hm; [lia|].
      rewrite E1, E2 by auto. exact Hv.
  Qed.
  Lemma red_ev a b i : Z.of_nat (length a) = c * Z.of_nat sz -> Z.of_nat (length b) = c * Z.of_nat sz -> 0 <= i < c ->
    f (ev a i) (ev b i) = Ok (ev (dt_red (int_dt T) o c a b) i).
  Proof.
    intros La Lb Hi. destruct (op_total (ev a i) (ev b i)) as (x & E & F); try apply ev_fits. rewrite E. f_equal.
    unfold ev at 1. destruct (red_chunk a b La Lb) as [_ H]. rewrite (H i x Hi E). symmetry. apply load_store; auto.
  Qed.
  Lemma red_len a b : Z.of_nat (length a) = c * Z.of_nat sz -> Z.of_nat (length b) = c * Z.of_nat sz -> Z.of_nat (length (dt_red (int_dt T) o c a b)) = c * Z.of_nat sz.
  Proof. intros La Lb. apply (red_chunk a b La Lb). Qed.

  Lemma int_assoc_comm : AssocComm (int_dt T) (Z.of_nat sz) o c.
  Proof.
    intros x y z Lx Ly Lz. assert (Hsz : (0 < sz)%nat) by (apply it_size_pos; auto).
    assert (Q : forall t1 t2 v w, Forall (Fits T) (leaves t1) -> Permutation (leaves t1) (leaves t2) -> combine_tree f t1 = Ok v -> combine_tree f t2 = Ok w -> v = w)
      by (intros t1 t2 v w; apply (C38_order_independent T o f t1 t2 v w IT Ef)).
    assert (Lxy := red_len x y Lx Ly). assert (Lyx := red_len y x Ly Lx). assert (Lyz := red_len y z Ly Lz).
    split; apply (chunk_ext sz c); auto; try apply red_len; auto; intros i Hi.
    - destruct (op_total (ev (dt_red (int_dt T) o c x y) i) (ev z i)) as (v & Ev & _); try apply ev_fits.
      destruct (op_total (ev x i) (ev (dt_red (int_dt T) o c y z) i)) as (w & Ew & _); try apply ev_fits.
      destruct (red_chunk _ z Lxy Lz) as [_ H1]. destruct (red_chunk x _ Lx Lyz) as [_ H2]. rewrite (H1 i v Hi Ev), (H2 i w Hi Ew). f_equal.
      apply (Q (Node (Node (Leaf (ev x i)) (Leaf (ev y i))) (Leaf (ev z i))) (Node (Leaf (ev x i)) (Node (Leaf (ev y i)) (Leaf (ev z i))))).
      + repeat constructor; apply ev_fits.
      + reflexivity.
      + cbn [combine_tree obind]. rewrite (red_ev x y i) by auto. exact Ev.
      + cbn [combine_tree obind]. rewrite (red_ev y z i) by auto. exact Ew.
    - destruct (op_total (ev x i) (ev y i)) as (v & Ev & _); try apply ev_fits. destruct (op_total (ev y i) (ev x i)) as (w & Ew & _); try apply ev_fits.
      destruct (red_chunk x y Lx Ly) as [_ H1]. destruct (red_chunk y x Ly Lx) as [_ H2]. rewrite (H1 i v Hi Ev), (H2 i w Hi Ew). f_equal.
      apply (Q (Node (Leaf (ev x i)) (Leaf (ev y i))) (Node (Leaf (ev y i)) (Leaf (ev x i)))); auto.
      + repeat constructor; apply ev_fits.
      + apply perm_swap.
  Qed.
End Int.

Lemma bytes_sized sz red ini o c pk up : 0 <= c * sz -> Sized (mkDT (bytes_red sz red) (bytes_init sz ini) pk up) sz o c.
Proof.
  intros H. split; cbn [dt_init dt_red].
  - unfold bytes_init. destruct (ini _ _ _ _); apply rdb_len; auto.
  - intros a b La Lb. unfold bytes_red. destruct (red _ _ _ _ _ _); auto. apply rdb_len; auto.
Qed.

(* ---- whole sequences ---- *)
Lemma ids_app a b : ids (a ++ b) = ids a ++ ids b.
Proof. apply flat_map_app. Qed.
Lemma ids_none l : (forall a, In a l -> match a_par a with BufReserve _ _ _ => False | _ => True end) -> ids l = [].
Proof. induction l as [|a l IH]; intros H; auto. cbn [ids flat_map]. fold (ids l). rewrite IH by (intros; apply H; right; auto). specialize (H a (or_introl eq_refl)). destruct (a_par a); auto; destruct H. Qed.

Lemma add_sends_par round me buf c : forall ts l, add_sends round me buf c ts = Ok l -> ids l = [].
Proof.
  induction ts as [|t ts IH]; intros l E; [injection E as <-; auto|]. cbn [add_sends] in E. destruct (t =? me); auto.
  apply obind_ok in E as (x & E1 & E2). apply obind_ok in E2 as (y & E3 & E4). injection E4 as <-. apply add_action_ok in E1 as (_ & ->). cbn [ids flat_map a_par app]. apply IH; auto.
Qed.
Lemma add_recvs_par round me id c bc : forall ts off l, add_recvs round me id off c bc ts = Ok l -> ids (fst (fst l)) = [].
Proof.
  induction ts as [|t ts IH]; intros off l E; [injection E as <-; auto|]. cbn [add_recvs] in E. destruct (t =? me); eauto.
  apply obind_ok in E as (x & E1 & E2). apply obind_ok in E2 as ([[y1 y2] y3] & E3 & E4). injection E4 as <-. apply add_action_ok in E1 as (_ & ->). cbn [ids flat_map a_par app fst]. exact (IH _ _ E3).
Qed.
Lemma add_lreds_par round r id to c : forall os l, add_local_reds round r id os to c = Ok l -> ids l = [].
Proof.
  induction os as [|t os IH]; intros l E; [injection E as <-; auto|]. cbn [add_local_reds] in E.
  apply obind_ok in E as (x & E1 & E2). apply obind_ok in E2 as (y & E3 & E4). injection E4 as <-. apply add_action_ok in E1 as (_ & ->). cbn [ids flat_map a_par app]. apply IH; auto.
Qed.
Definition newids (k k' : Z) (l : list action) : Prop := (k' = k /\ ids l = []) \/ (k' = k + 1 /\ ids l = [k + 100]).

Ltac one1 E := let x := fresh in let E1 := fresh in let E2 := fresh in apply obind_ok in E as (x & E1 & E2); apply add_action_ok in E1 as (_ & ->); injection E2 as <-.

Lemma reduce_here_new cx nres R ins f t c r l k : reduce_here cx nres R ins f t c r = Ok (l, k) -> newids nres k l.
Proof.
  unfold reduce_here, add_reserve. set (bs := u32 _). intros E.
  assert (G : exists res id, (bs >? 0 = true /\ res = [mkAct 0 (BufReserve bs (nres + 100) 0)] /\ k = nres + 1 \/ bs >? 0 = false /\ res = [] /\ k = nres) /\
    cassert (Z.of_nat (length ins) <=? 32)
     (do x <- add_recvs (3 * R) (cx_me cx) id 0 c (u32 (c * cx_es cx)) ins;
      (let '(recvs, offs, off) := x in
       let bufOff := if existsb (fun x => x =? cx_me cx) ins then 0 :: offs else offs in
       cassert (Z.of_nat (length bufOff) =? Z.of_nat (length ins))
         (cassert (off =? bs)
            (do acts <- match bufOff with
              | [] => do x <- add_action (3 * R + 1) (BufInit r t c); Ok [x]
              | o0 :: os =>
                  do c0 <- (if existsb (fun x => x =? cx_me cx) ins then
                      if negb (f =? t) then do x <- add_action (3 * R + 1) (BufCopy f t c); Ok [x] else Ok []
                      else do x <- add_action (3 * R + 1) (RBufCopy id o0 t c); Ok [x]);
                  do l <- add_local_reds (3 * R + 1) r id os t c; Ok (c0 ++ l)
              end; Ok (res ++ recvs ++ acts, k))))) = Ok (l, k)).
  { destruct (bs >? 0) eqn:B; eexists _, _.
    - assert (k = nres + 1).
      { apply cassert_ok in E as (_ & E). apply obind_ok in E as ([[a b] e] & _ & E). apply cassert_ok in E as (_ & E). apply cassert_ok in E as (_ & E). apply obind_ok in E as (u & _ & E). injection E as _ <-. auto. }
      subst k. split; [left; repeat split|exact E].
    - assert (k = nres).
      { apply cassert_ok in E as (_ & E). apply obind_ok in E as ([[a b] e] & _ & E). apply cassert_ok in E as (_ & E). apply cassert_ok in E as (_ & E). apply obind_ok in E as (u & _ & E). injection E as _ <-. auto. }
      subst k. split; [right; repeat split|exact E]. }
  clear E. destruct G as (res & id & Hres & E).
  apply cassert_ok in E as (_ & E). apply obind_ok in E as ([[rv os] off] & E1 & E). apply cassert_ok in E as (_ & E). apply cassert_ok in E as (_ & E). apply obind_ok in E as (acts & E2 & E). injection E as <-.
  apply add_recvs_par in E1. cbn [fst] in E1.
  assert (E3 : ids acts = []).
  { destruct (if existsb (fun x => x =? cx_me cx) ins then 0 :: os else os) as [|o0 os'].
    - one1 E2. auto.
    - apply obind_ok in E2 as (c0 & E3 & E4). apply obind_ok in E4 as (c1 & E5 & E6). injection E6 as <-. apply add_lreds_par in E5. rewrite ids_app, E5, app_nil_r.
      destruct (existsb _ ins); [destruct (negb (f =? t)); [|injection E3 as <-; auto]|]; one1 E3; auto. }
  unfold newids. rewrite !ids_app, E1, E3, !app_nil_r.
  destruct Hres as [(_ & -> & ->)|(_ & -> & ->)]; auto.
Qed.

Lemma split_one_new cx nres a l k : split_one cx nres a = Ok (l, k) -> is_groupReduce a = true -> newids nres k l.
Proof.
  unfold split_one, is_groupReduce. destruct (a_par a); try discriminate. intros E _. apply obind_ok in E as (ins & Ei & E).
  destruct (_ >? _).
  - unfold add_reduce3 in E. apply obind_ok in E as (outs & _ & E). apply obind_ok in E as (root & _ & E). apply obind_ok in E as (ins' & _ & E).
    destruct (negb _).
    + apply obind_ok in E as (c1 & E1 & E). apply obind_ok in E as (c2 & E2 & E). injection E as <- <-. left. split; auto. rewrite ids_app.
      assert (A : ids c1 = []) by (destruct (existsb _ ins'); [one1 E1; auto|injection E1 as <-; auto]).
      assert (B : ids c2 = []) by (destruct (existsb _ outs); [one1 E2; auto|injection E2 as <-; auto]). rewrite A, B. auto.
    + apply obind_ok in E as ([x1 x2] & E1 & E). apply obind_ok in E as (s & E2 & E). injection E as <- <-. apply reduce_here_new in E1. apply add_sends_par in E2.
      unfold newids in *. cbn [fst snd]. rewrite ids_app, E2, app_nil_r. auto.
  - unfold add_reduce2 in E. apply obind_ok in E as (ins' & _ & E). apply obind_ok in E as (outs & _ & E). apply obind_ok in E as (s & E1 & E).
    assert (A : ids s = []) by (destruct (existsb _ ins'); [eapply add_sends_par; eauto|injection E1 as <-; auto]).
    destruct (negb _); [injection E as <- <-; left; auto|].
    apply obind_ok in E as ([x1 x2] & E2 & E). injection E as <- <-. apply reduce_here_new in E2. unfold newids in *. cbn [fst snd]. rewrite ids_app, A. auto.
Qed.

(* what becomes of one action *)
Definition SplitOf (cx : actx) (nres : Z) (a : action) (part : list action) : Prop :=
  if is_groupReduce a then exists k k', nres <= k /\ split_one cx k a = Ok (part, k')
  else filter not_nop part = filter not_nop [mkAct (3 * a_round a + 1) (a_par a)].

Lemma aseq_add_ok a k l : 0 <= k -> aseq_add a k = Ok l -> filter not_nop l = filter not_nop [mkAct k (a_par a)] /\ ids l = ids [a].
Proof.
  unfold aseq_add. intros Hk E. destruct (a_par a) eqn:P; try (one1 E; destruct (k <? 0) eqn:Q; [lia|]; unfold ids; cbn [flat_map a_par]; rewrite P; auto).
  all: injection E as <-; unfold ids; cbn [flat_map]; rewrite P; auto.
Qed.

Lemma split_loop_parts cx : forall l nres r k, (forall a, In a l -> 0 <= a_round a) -> split_loop cx nres l = Ok (r, k) -> nres <= k /\
  exists parts, r = concat parts /\ Forall2 (SplitOf cx nres) l parts.
Proof.
  induction l as [|a l IH]; intros nres r k Hr E.
  - injection E as <- <-. split; [lia|]. exists []. split; auto.
  - cbn [split_loop] in E. apply obind_ok in E as ([x1 x2] & E1 & E). apply obind_ok in E as ([y1 y2] & E2 & E). injection E as <- <-. cbn [fst snd] in *.
    assert (Hx : nres <= x2 /\ SplitOf cx nres a x1).
    { unfold SplitOf. destruct (is_groupReduce a) eqn:G.
      - split; [destruct (split_one_new _ _ _ _ _ E1 G) as [[-> _]|[-> _]]; lia|]. exists nres, x2. split; [lia|auto].
      - unfold split_one in E1. unfold is_groupReduce in G. specialize (Hr a (or_introl eq_refl)).
        destruct (a_par a) eqn:P; try discriminate G; apply obind_ok in E1 as (z & E3 & E4); injection E4 as <- <-;
        (split; [lia|]); apply aseq_add_ok in E3; try lia; rewrite P in E3; tauto. }
    destruct Hx as [Hx1 Hx2]. destruct (IH x2 y1 y2 ltac:(intros; apply Hr; right; auto) E2) as (Hy & parts & -> & HP).
    split; [lia|]. exists (x1 :: parts). split; auto. constructor; auto. clear - HP Hx1.
    induction HP as [|b p l ps Hb HP IH]; constructor; auto. unfold SplitOf in *. destruct (is_groupReduce b); auto. destruct Hb as (q & q' & H1 & H2). exists q, q'. split; [lia|auto].
Qed.

Lemma split_loop_ids cx : forall l nres r k, (forall a, In a l -> 0 <= a_round a) -> split_loop cx nres l = Ok (r, k) ->
  exists new, Permutation (ids r) (new ++ ids l) /\ NoDup new /\ nres <= k /\ forall x, In x new -> nres + 100 <= x < k + 100.
Proof.
  induction l as [|a l IH]; intros nres r k Hr E.
  - injection E as <- <-. exists []. cbn. repeat split; auto; try constructor; try lia; tauto.
  - cbn [split_loop] in E. apply obind_ok in E as ([x1 x2] & E1 & E). apply obind_ok in E as ([y1 y2] & E2 & E). injection E as <- <-. cbn [fst snd] in *.
    destruct (IH x2 y1 y2 ltac:(intros; apply Hr; right; auto) E2) as (new & P & ND & Hk & Hn). rewrite ids_app. change (ids (a :: l)) with (ids ([a] ++ l)). rewrite ids_app.
    destruct (is_groupReduce a) eqn:G.
    + assert (Ea : ids [a] = []) by (unfold ids, is_groupReduce in *; cbn [flat_map]; destruct (a_par a); try discriminate; auto). rewrite Ea. cbn [app].
      destruct (split_one_new _ _ _ _ _ E1 G) as [[-> Ei]|[-> Ei]]; rewrite Ei; cbn [app].
      * exists new. auto.
      * exists ((nres + 100) :: new). cbn [app]. split; [constructor; auto|]. split; [constructor; auto; intros I; apply Hn in I; lia|]. split; [lia|].
        intros x [<-|I]; [lia|apply Hn in I; lia].
    + assert (X : x2 = nres /\ ids x1 = ids [a]).
      { unfold split_one in E1. unfold is_groupReduce in G. specialize (Hr a (or_introl eq_refl)).
        destruct (a_par a) eqn:P1; try discriminate G; apply obind_ok in E1 as (z & E3 & E4); injection E4 as <- <-; (split; [auto|]); apply aseq_add_ok in E3; try lia; tauto. }
      destruct X as [-> Ex]. rewrite Ex. exists new. split; [|auto]. rewrite P, !app_assoc. apply Permutation_app_tail, Permutation_app_comm.
Qed.
