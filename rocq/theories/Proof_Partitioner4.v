(* C16: acceptance; C11: bisection *)
From Coq Require Import ZArith List Bool Lia Permutation Sorted ZifyBool ZifyNat.
From Verif Require Import Base ListFacts Model_Space Spec_Space Proof_Space Model_RangeList Spec_RangeList
  Proof_RangeList Proof_RangeList2 Proof_RangeList3 Proof_RangeList4 Proof_RangeList5 Proof_Cover
  Model_Partitioner Spec_Partitioner Proof_Partitioner Proof_Partitioner2.
Import ListNotations.
Open Scope Z_scope.

(* merging keeps ranges non-empty *)
Lemma merge_loop_nonempty : forall src cur,
  Forall (fun x => i0 (b_from (t_box x)) < i0 (b_to (t_box x))) (cur :: src) ->
  Forall (fun x => i0 (b_from (t_box x)) < i0 (b_to (t_box x))) (merge_loop cur src).
Proof.
  induction src as [|s src IH]; intros cur F; simpl; auto.
  inversion F as [|? ? F1 F2]; subst. inversion F2 as [|? ? F3 F4]; subst.
  destruct (negb _ || negb _ || _); [constructor; auto|].
  destruct (_ <? _) eqn:E; apply IH; constructor; auto. simpl. lia.
Qed.

Lemma nonempty1 b : NonEmpty 1 b <-> i0 (b_from b) < i0 (b_to b).
Proof.
  unfold NonEmpty, InBox. split.
  - intros [i H]. lia.
  - intros H. exists (b_from b). lia.
Qed.

(* In one dimension, calls of non-empty ranges that cover the space are accepted *)
Lemma accept_1d q pr p cs :
  good_sorts q -> 0 <= g_size (pp_group p) ->
  (forall o, pp_other p = Some o -> op_group o = pp_group p) ->
  sp_dims (pp_space p) = 1%nat -> NonEmpty 1 (sp_box (pp_space p)) ->
  pr_run pr p = Ok cs ->
  (forall c, In c cs -> exists t r g, c = ACrange t r g /\ 0 <= t < g_size (pp_group p) /\
      r_space r = Some (pp_space p) /\ NonEmpty 1 (r_box r) /\ SubBox 1 (r_box r) (sp_box (pp_space p))) ->
  (forall i, InBox 1 i (sp_box (pp_space p)) -> exists t, Given 1 cs t i) ->
  exists l, run_partitioner q pr p None = Ok l.
Proof.
  intros Hq Hg Ho Hd Hn Hr Hc Hcov.
  assert (Hv : valid_dims (sp_dims (pp_space p))) by (rewrite Hd; left; auto).
  assert (F : Forall (ok_call (pp_space p) (g_size (pp_group p))) cs).
  { apply Forall_forall. intros c Hin. destruct (Hc c Hin) as [t [r [g [-> [C1 [C2 [C3 C4]]]]]]]. simpl.
    split; auto. split; auto. apply box_within_complete; auto; rewrite Hd; auto. }
  assert (Nc : cs <> []).
  { destruct Hn as [i Hi]. destruct (Hcov i Hi) as [t [c [K _]]]. destruct cs; [destruct K|discriminate]. }
  unfold run_partitioner.
  replace (match pp_other p with None => true | Some o => group_eq (op_group o) (pp_group p) end) with true.
  2:{ destruct (pp_other p) as [o|]; auto. unfold group_eq. destruct (group_dec _ _); auto. exfalso. auto. }
  simpl. rewrite Hr. simpl. destruct (run_calls_total _ _ _ F) as [l0 R]. pose proof R as R'. unfold run_calls in R'. rewrite R'. simpl.
  destruct (freeze_calls_total q _ _ _ _ (pr_merge pr) Hq Hg F R ltac:(auto)) as [l [G1 G2]].
  rewrite G1. simpl.
  destruct (calls_freeze _ _ _ _ _ _ _ Hq Hv Hg R G1) as [FL [E1 [_ [_ O]]]].
  assert (C : rl_coversSpace (q_from q) l = Ok true).
  { destruct Hq as [Q1 [Q2 Q3]]. apply covers_1d_total; auto; try (rewrite E1; auto).
    - apply Forall_forall. intros x Hx. apply nonempty1.
      assert (K : In (t_task x, t_box x, t_tag x) (map (fun x => (t_task x, t_box x, t_tag x)) (rl_trs l)))
        by (apply (in_map (fun x => (t_task x, t_box x, t_tag x))); auto).
      eapply Permutation_in in K; [|exact G2]. destruct (pr_merge pr).
      + apply in_map_iff in K. destruct K as [y [K Hy]]. unfold key in K. injection K as _ Kb _. rewrite <- Kb.
        destruct (q_gen q (map app_trg (map to_app cs))) as [|z zs] eqn:Ez; [destruct Hy|].
        assert (Fz : Forall (fun x => i0 (b_from (t_box x)) < i0 (b_to (t_box x))) (z :: zs)).
        { apply Forall_forall. intros u Hu. destruct (Q1 (map app_trg (map to_app cs))) as [P _].
          rewrite Ez in P. eapply Permutation_in in Hu; [|apply Permutation_sym; exact P].
          apply in_map_iff in Hu. destruct Hu as [a [<- Hu]]. apply in_map_iff in Hu. destruct Hu as [c [<- Hu]].
          destruct (Hc c Hu) as [t [r [g [-> [_ [_ [C3 _]]]]]]]. simpl. apply nonempty1; auto. }
        apply merge_loop_nonempty in Fz. rewrite Forall_forall in Fz. apply Fz; auto.
      + apply in_map_iff in K. destruct K as [c [K Hin]].
        destruct (Hc c Hin) as [t [r [g [-> [_ [_ [C3 _]]]]]]]. injection K as _ Kb _. rewrite <- Kb. apply nonempty1; auto.
    - intros i Hi. destruct (Hcov i Hi) as [t K]. rewrite Hd in O. apply O in K.
      apply owns_iff_trs in K; auto. destruct K as [x [Hx [_ K]]]. rewrite E1, Hd in K. eauto. }
  rewrite C. simpl. destruct (pr_nocover pr); simpl; eauto.
Qed.

(* ---- a run never has undefined behaviour ---- *)

Definition defined {A} (x : outcome A) : Prop := match x with UB => False | NoFuel => False | _ => True end.

Lemma defined_bind {A B} (x : outcome A) (f : A -> outcome B) :
  defined x -> (forall a, x = Ok a -> defined (f a)) -> defined (obind x f).
Proof. destruct x; simpl; auto. Qed.
Lemma defined_cassert {A} c (k : outcome A) : (c = true -> defined k) -> defined (cassert c k).
Proof. destruct c; simpl; auto. Qed.
Lemma defined_ofold {S X} (f : S -> X -> outcome S) l : (forall s x, defined (f s x)) -> forall s, defined (ofold f l s).
Proof.
  intros H. induction l as [|x l IH]; intros s; simpl; auto. apply defined_bind; auto.
Qed.

Lemma defined_append l t r g : defined (rl_append l t r g).
Proof.
  unfold rl_append. destruct (r_space r) as [s|] eqn:E; simpl; auto.
  do 3 (apply defined_cassert; intros _). apply defined_bind.
  - unfold range_within_space, range_within_range. rewrite E. simpl. apply defined_cassert. simpl; auto.
  - intros a _. apply defined_cassert. simpl; auto.
Qed.
Lemma defined_single l t x : defined (rl_append_single1d l t x).
Proof. unfold rl_append_single1d. do 3 (apply defined_cassert; intros _). simpl; auto. Qed.

Lemma defined_cover d rms : forall nc, defined (cover_loop d rms nc).
Proof.
  assert (G : forall old acc b, defined (appendToNotcovered old acc b)).
  { intros. unfold appendToNotcovered. apply defined_cassert. simpl; auto. }
  assert (G2 : forall old rm st k, defined (cover_dim old rm st k)).
  { intros old rm [orig acc] k. unfold cover_dim. apply defined_bind.
    - destruct (_ <? _); simpl; auto. apply defined_bind; auto. simpl; auto.
    - intros [o1 a1] _. destruct (_ >? _); simpl; auto. apply defined_bind; auto. simpl; auto. }
  induction rms as [|rm rms IH]; intros nc; simpl; auto.
  apply defined_bind.
  - apply defined_ofold. intros acc orig. unfold cover_one. destruct (box_intersect d orig (t_box rm)); auto.
    apply defined_bind; [apply defined_ofold; auto|]. simpl; auto.
  - intros nc' _. destruct nc'; simpl; auto.
Qed.

Lemma defined_freeze q s tids h l m : good_sorts q -> valid_dims (sp_dims s) -> 0 <= tids ->
  run_calls s tids h = Ok l -> (sp_dims s = 1%nat \/ Forall (fun c => is_range c = true) h) ->
  defined (rl_freeze (q_gen q) (q_si q) l m).
Proof.
  intros [Q1 [Q2 Q3]] Hd Ht H K. destruct (run_calls_kind _ _ _ _ H) as [[F R]|[N [F R]]].
  - destruct m.
    + destruct (list_eq_dec Nat.eq_dec (map (fun _ => 0%nat) h) []) as [E|E].
      * assert (h = []) by (destruct h; [auto|discriminate]). subst h.
        rewrite (freeze_fails s tids _ l (q_gen q) (q_si q) R Q1); simpl; auto.
      * destruct (Nat.eq_dec (sp_dims s) 1) as [D|D].
        -- destruct (freeze_total_gen s tids (map to_app h) l (q_gen q) (q_si q) true Ht Q1 R) as [l' E'].
           { intros _. split; auto. destruct h; simpl in *; congruence. }
           rewrite E'. simpl; auto.
        -- rewrite (freeze_fails s tids _ l (q_gen q) (q_si q) R Q1); simpl; auto.
    + destruct (freeze_total_gen s tids (map to_app h) l (q_gen q) (q_si q) false Ht Q1 R) as [l' E'].
      { discriminate. }
      rewrite E'. simpl; auto.
  - assert (N' : map to_si h <> []) by (destruct h; simpl; congruence).
    assert (D : sp_dims s = 1%nat).
    { destruct K as [K|K]; auto. exfalso. destruct h as [|c h]; [congruence|].
      inversion K; subst. inversion F; subst. congruence. }
    destruct (freeze_singles_ok _ _ _ _ (q_gen q) _ m R Q2 N' D Ht) as [l' [x [r [G1 _]]]].
    rewrite G1. simpl; auto.
Qed.

Lemma run_defined q pr p cs :
  good_sorts q -> valid_dims (sp_dims (pp_space p)) -> 0 <= g_size (pp_group p) ->
  pr_run pr p = Ok cs ->
  (sp_dims (pp_space p) = 1%nat \/ Forall (fun c => is_range c = true) cs) ->
  defined (run_partitioner q pr p None).
Proof.
  intros Hq Hd Hg Hr K. unfold run_partitioner. apply defined_cassert. intros _. rewrite Hr. simpl.
  apply defined_bind.
  - apply defined_ofold. intros l [t r g|t x]; simpl; [apply defined_append|apply defined_single].
  - intros l R. apply defined_bind.
    + eapply defined_freeze; eauto.
    + intros l2 _. destruct (_ && _); simpl; auto. apply defined_bind; [apply defined_cover|].
      intros c _. destruct c; simpl; auto.
Qed.

(* ---- bisection ---- *)

Definition dwidth (b : box) (k : nat) : Z := idx_get (b_to b) k - idx_get (b_from b) k.

Lemma bis_dim_spec d b : valid_dims d -> forall k w, bis_dim d b = (k, w) ->
  (k < d)%nat /\ w = dwidth b k /\ forall k', (k' < d)%nat -> dwidth b k' <= w.
Proof.
  intros Hd k w H. unfold bis_dim, dwidth in *. dims_cases Hd; simpl in H.
  - injection H as <- <-. simpl. split; [lia|]. split; [lia|]. intros k' Hk'. assert (k' = 0%nat) by lia. subst. simpl. lia.
  - destruct (_ >? _) eqn:E; injection H as <- <-; simpl; (split; [lia|]; split; [lia|]);
      intros k' Hk'; assert (K : (k' = 0 \/ k' = 1)%nat) by lia; destruct K; subst; simpl; lia.
  - destruct (i1 (b_to b) - i1 (b_from b) >? i0 (b_to b) - i0 (b_from b)) eqn:E; simpl in H;
      destruct (_ >? _) eqn:E2 in H; injection H as <- <-; simpl; (split; [lia|]; split; [lia|]);
      intros k' Hk'; assert (K : (k' = 0 \/ k' = 1 \/ k' = 2)%nat) by lia; destruct K as [K|[K|K]]; subst; simpl; lia.
Qed.

Definition OrderedG (d : nat) (b : box) : Prop :=
  forall k, (k < d)%nat -> idx_get (b_from b) k <= idx_get (b_to b) k.

(* the calls are a tiling of box b by the processes [f,t), one range each *)
Record Tiles (sp : space) (b : box) (f t : Z) (cs : list acall) : Prop := {
  tl_form : forall c, In c cs -> exists u bx, c = ACrange u (mkRange (Some sp) bx) 1 /\ f <= u < t /\
              (forall k, (k < sp_dims sp)%nat -> idx_get (b_from b) k <= idx_get (b_from bx) k /\ idx_get (b_from bx) k <= idx_get (b_to bx) k <= idx_get (b_to b) k);
  tl_nodup : NoDup (map (fun c => a_task (to_app c)) cs);
  tl_cover : forall i, InBox (sp_dims sp) i b -> exists u, Given (sp_dims sp) cs u i;
  tl_unique : forall i u v, Given (sp_dims sp) cs u i -> Given (sp_dims sp) cs v i -> u = v }.

Lemma given_app d h1 h2 t i : Given d (h1 ++ h2) t i <-> Given d h1 t i \/ Given d h2 t i.
Proof.
  unfold Given. split.
  - intros [c [H K]]. apply in_app_iff in H. destruct H; [left|right]; eauto.
  - intros [[c [H K]]|[c [H K]]]; exists c; rewrite in_app_iff; auto.
Qed.

Lemma tiles_inside sp b f t cs u i : valid_dims (sp_dims sp) -> Tiles sp b f t cs -> Given (sp_dims sp) cs u i ->
  f <= u < t /\ InBox (sp_dims sp) i b.
Proof.
  intros Hd T [c [Hc G]]. destruct (tl_form _ _ _ _ _ T c Hc) as [v [bx [-> [H1 H2]]]].
  destruct G as [<- G]. split; auto. simpl in G. rewrite InBox_get in * by auto.
  intros k Hk. specialize (G k Hk). specialize (H2 k Hk). lia.
Qed.

Lemma tiles_single sp b f t : f < t -> OrderedG (sp_dims sp) b -> Tiles sp b f t [ACrange f (mkRange (Some sp) b) 1].
Proof.
  intros Ht Hb. constructor.
  - intros c [<-|[]]. exists f, b. split; auto. split; [lia|]. intros k Hk. specialize (Hb k Hk). lia.
  - repeat constructor. intros [].
  - intros i Hi. exists f. eexists. split; [left; reflexivity|]. simpl; auto.
  - intros i u v [c [[<-|[]] [<- _]]] [c' [[<-|[]] [<- _]]]. reflexivity.
Qed.

Lemma split_cut n w width h : 0 <= width -> 0 < h < n -> w = width * h / n -> 0 <= w <= width.
Proof.
  intros H1 H2 ->. split; [apply Z.div_pos; lia|].
  apply Z.div_le_upper_bound; nia.
Qed.

Lemma tiles_split sp b k cut f m t cs1 cs2 : valid_dims (sp_dims sp) -> (k < sp_dims sp)%nat ->
  idx_get (b_from b) k <= cut <= idx_get (b_to b) k -> f <= m <= t ->
  Tiles sp (mkBox (b_from b) (idx_set (b_to b) k cut)) f m cs1 ->
  Tiles sp (mkBox (idx_set (b_from b) k cut) (b_to b)) m t cs2 ->
  Tiles sp b f t (cs1 ++ cs2).
Proof.
  intros Hd Hk Hc Hm T1 T2. pose proof (valid_lt3 _ _ Hd Hk) as L3.
  assert (S1 : forall k', (k' < sp_dims sp)%nat -> idx_get (idx_set (b_to b) k cut) k' <= idx_get (b_to b) k').
  { intros k' Hk'. destruct (Nat.eq_dec k' k) as [->|Nk]; [rewrite get_set by auto; lia|].
    rewrite get_set_other by (auto; eapply valid_lt3; eauto). lia. }
  assert (S2 : forall k', (k' < sp_dims sp)%nat -> idx_get (b_from b) k' <= idx_get (idx_set (b_from b) k cut) k').
  { intros k' Hk'. destruct (Nat.eq_dec k' k) as [->|Nk]; [rewrite get_set by auto; lia|].
    rewrite get_set_other by (auto; eapply valid_lt3; eauto). lia. }
  constructor.
  - intros c Hin. apply in_app_iff in Hin. destruct Hin as [Hin|Hin].
    + destruct (tl_form _ _ _ _ _ T1 c Hin) as [u [bx [-> [H1 H2]]]]. exists u, bx. split; auto. split; [lia|].
      intros k' Hk'. specialize (H2 k' Hk'). specialize (S1 k' Hk'). simpl in H2. lia.
    + destruct (tl_form _ _ _ _ _ T2 c Hin) as [u [bx [-> [H1 H2]]]]. exists u, bx. split; auto. split; [lia|].
      intros k' Hk'. specialize (H2 k' Hk'). specialize (S2 k' Hk'). simpl in H2. lia.
  - rewrite map_app. apply NoDup_app_intro; [apply (tl_nodup _ _ _ _ _ T1)|apply (tl_nodup _ _ _ _ _ T2)|].
    intros x Hx1 Hx2. apply in_map_iff in Hx1, Hx2. destruct Hx1 as [c1 [E1 C1]], Hx2 as [c2 [E2 C2]].
    destruct (tl_form _ _ _ _ _ T1 c1 C1) as [u [bx [-> [H1 _]]]].
    destruct (tl_form _ _ _ _ _ T2 c2 C2) as [v [bx2 [-> [H2 _]]]]. simpl in *. lia.
  - intros i Hi. rewrite InBox_get in Hi by auto. destruct (Z_lt_dec (idx_get i k) cut) as [L|L].
    + destruct (tl_cover _ _ _ _ _ T1 i) as [u G].
      { rewrite InBox_get by auto. intros k' Hk'. specialize (Hi k' Hk'). simpl. destruct (Nat.eq_dec k' k) as [->|Nk].
        - rewrite get_set by auto. lia.
        - rewrite get_set_other by (auto; eapply valid_lt3; eauto). lia. }
      exists u. apply given_app. auto.
    + destruct (tl_cover _ _ _ _ _ T2 i) as [u G].
      { rewrite InBox_get by auto. intros k' Hk'. specialize (Hi k' Hk'). simpl. destruct (Nat.eq_dec k' k) as [->|Nk].
        - rewrite get_set by auto. lia.
        - rewrite get_set_other by (auto; eapply valid_lt3; eauto). lia. }
      exists u. apply given_app. auto.
  - assert (X : forall i u v, Given (sp_dims sp) cs1 u i -> Given (sp_dims sp) cs2 v i -> False).
    { intros i u v G1 G2. apply (tiles_inside _ _ _ _ _ _ _ Hd T1) in G1. apply (tiles_inside _ _ _ _ _ _ _ Hd T2) in G2.
      destruct G1 as [_ G1], G2 as [_ G2]. rewrite InBox_get in G1, G2 by auto.
      specialize (G1 k Hk). specialize (G2 k Hk). simpl in *. rewrite get_set in G1, G2 by auto. lia. }
    intros i u v G1 G2. apply given_app in G1, G2. destruct G1 as [G1|G1], G2 as [G2|G2].
    + eapply (tl_unique _ _ _ _ _ T1); eauto.
    + exfalso; eauto.
    + exfalso; eauto.
    + eapply (tl_unique _ _ _ _ _ T2); eauto.
Qed.

Lemma bisection_tiles sp : valid_dims (sp_dims sp) -> forall fuel b f t cs,
  OrderedG (sp_dims sp) b -> doBisection fuel sp b f t = Ok cs -> Tiles sp b f t cs.
Proof.
  intros Hd. induction fuel as [|n IH]; intros b f t cs Hb H; simpl in H; [discriminate|].
  apply cassert_ok in H. destruct H as [Ht H].
  destruct (t - f =? 1) eqn:E1.
  { injection H as <-. apply tiles_single; auto. lia. }
  destruct (bis_dim (sp_dims sp) b) as [k w] eqn:Eb.
  apply cassert_ok in H. destruct H as [Hw H].
  destruct (w =? 1) eqn:E2.
  { injection H as <-. apply tiles_single; auto. lia. }
  destruct (bis_dim_spec _ _ Hd _ _ Eb) as [B1 [B2 B3]].
  set (m := (f + t) / 2) in *.
  assert (Hm : f < m < t). { pose proof (Z.div_mod (f + t) 2 ltac:(lia)). pose proof (Z.mod_pos_bound (f + t) 2 ltac:(lia)). unfold m. lia. }
  set (cut := idx_get (b_from b) k + w * (m - f) / (t - f)) in *.
  assert (Hc : idx_get (b_from b) k <= cut <= idx_get (b_to b) k).
  { unfold cut. pose proof (split_cut (t - f) _ w (m - f) ltac:(lia) ltac:(lia) eq_refl). unfold dwidth in B2. lia. }
  apply obind_ok in H. destruct H as [r1 [H1 H]]. apply obind_ok in H. destruct H as [r2 [H2 H]].
  injection H as <-. pose proof (valid_lt3 _ _ Hd B1) as L3.
  apply (tiles_split sp b k cut f m t r1 r2); auto; [lia| |]; [eapply (IH _ f m)|eapply (IH _ m t)]; eauto.
  - intros k' Hk'. simpl. specialize (Hb k' Hk'). destruct (Nat.eq_dec k' k) as [->|Nk].
    + rewrite get_set by auto. lia.
    + rewrite get_set_other by (auto; eapply valid_lt3; eauto). lia.
  - intros k' Hk'. simpl. specialize (Hb k' Hk'). destruct (Nat.eq_dec k' k) as [->|Nk].
    + rewrite get_set by auto. lia.
    + rewrite get_set_other by (auto; eapply valid_lt3; eauto). lia.
Qed.

Lemma bisection_fuel sp : forall fuel b f t,
  valid_dims (sp_dims sp) -> (Z.to_nat (t - f) < fuel)%nat -> defined (doBisection fuel sp b f t).
Proof.
  induction fuel as [|n IH]; intros b f t Hd Hf; [lia|]. simpl.
  apply defined_cassert. intros Ht. destruct (t - f =? 1) eqn:E1; simpl; auto.
  destruct (bis_dim (sp_dims sp) b) as [k w] eqn:Eb. apply defined_cassert. intros Hw.
  destruct (w =? 1) eqn:E2; simpl; auto.
  set (m := (f + t) / 2) in *.
  assert (Hm : f < m < t). { pose proof (Z.div_mod (f + t) 2 ltac:(lia)). pose proof (Z.mod_pos_bound (f + t) 2 ltac:(lia)). unfold m. lia. }
  apply defined_bind; [apply IH; auto; lia|]. intros r1 _.
  apply defined_bind; [apply IH; auto; lia|]. simpl; auto.
Qed.

(* 1d, at least as many indexes as processes: succeeds, every process gets something *)
Lemma bisection_1d sp : sp_dims sp = 1%nat -> forall fuel b f t,
  f < t -> (Z.to_nat (t - f) < fuel)%nat -> t - f <= i0 (b_to b) - i0 (b_from b) ->
  exists cs, doBisection fuel sp b f t = Ok cs /\
    (forall u, f <= u < t -> exists bx, In (ACrange u (mkRange (Some sp) bx) 1) cs) /\
    (forall c, In c cs -> exists u bx, c = ACrange u (mkRange (Some sp) bx) 1 /\ NonEmpty 1 bx).
Proof.
  intros Hd. induction fuel as [|n IH]; intros b f t Hft Hf Hw; [lia|]. simpl.
  replace (t >? f) with true by lia. simpl. destruct (t - f =? 1) eqn:E1.
  { eexists. split; [reflexivity|]. split.
    - intros u Hu. exists b. left. f_equal. lia.
    - intros c [<-|[]]. exists f, b. split; auto. apply nonempty1. lia. }
  unfold bis_dim. rewrite Hd. simpl.
  set (w := i0 (b_to b) - i0 (b_from b)) in *.
  replace (w >? 0) with true by lia. simpl. replace (w =? 1) with false by lia.
  set (m := (f + t) / 2).
  assert (Hm : f < m < t). { pose proof (Z.div_mod (f + t) 2 ltac:(lia)). pose proof (Z.mod_pos_bound (f + t) 2 ltac:(lia)). unfold m. lia. }
  set (c := w * (m - f) / (t - f)).
  assert (Hc : m - f <= c /\ t - m <= w - c).
  { split.
    - unfold c. apply Z.div_le_lower_bound; nia.
    - assert (c <= w - (t - m)); [|lia]. unfold c. apply Z.div_le_upper_bound; [lia|]. nia. }
  destruct (IH (mkBox (b_from b) (mkIdx (i0 (b_from b) + c) (i1 (b_to b)) (i2 (b_to b)))) f m ltac:(lia) ltac:(lia) ltac:(simpl; lia)) as [r1 [R1 [R2 R3]]].
  destruct (IH (mkBox (mkIdx (i0 (b_from b) + c) (i1 (b_from b)) (i2 (b_from b))) (b_to b)) m t ltac:(lia) ltac:(lia) ltac:(simpl; lia)) as [r2 [S1 [S2 S3]]].
  rewrite R1. simpl. rewrite S1. simpl. eexists. split; [reflexivity|]. split.
  - intros u Hu. destruct (Z_lt_dec u m).
    + destruct (R2 u ltac:(lia)) as [bx K]. exists bx. apply in_app_iff; auto.
    + destruct (S2 u ltac:(lia)) as [bx K]. exists bx. apply in_app_iff; auto.
  - intros x Hx. apply in_app_iff in Hx. destruct Hx; auto.
Qed.

Lemma tiles_count {A} (g : A -> Z) (l : list A) t : NoDup (map g l) -> (length (filter (fun a => (g a =? t)%Z) l) <= 1)%nat.
Proof.
  induction l as [|a l IH]; simpl; intros H; [lia|]. inversion H as [|? ? H1 H2]; subst.
  destruct (g a =? t) eqn:E; simpl; auto.
  replace (filter (fun a => g a =? t) l) with (@nil A); simpl; [lia|].
  symmetry. destruct (filter (fun a => g a =? t) l) as [|y r] eqn:Ef; auto.
  exfalso. assert (K : In y (filter (fun a => g a =? t) l)) by (rewrite Ef; left; auto).
  apply filter_In in K. destruct K as [K1 K2]. apply H1. replace (g a) with (g y) by lia. apply in_map; auto.
Qed.

Lemma bisection_owns q p l : good_sorts q -> valid_dims (sp_dims (pp_space p)) -> 0 <= g_size (pp_group p) ->
  Ordered (sp_dims (pp_space p)) (sp_box (pp_space p)) ->
  run_partitioner q bisection_partitioner p None = Ok l ->
  (forall i, InBox (sp_dims (pp_space p)) i (sp_box (pp_space p)) ->
     exists t, 0 <= t < g_size (pp_group p) /\ Owns l t i) /\
  Unique l /\
  (forall t, 0 <= t < g_size (pp_group p) -> exists n, rl_tidrangecount l t = Ok n /\ 0 <= n <= 1).
Proof.
  intros Hq Hd Hg Hor H.
  destruct (run_partitioner_ok _ _ _ _ _ Hq Hd Hg H) as [cs [l0 [R1 [R2 [R3 [FL [EL [ET [O _]]]]]]]]].
  simpl in R1. unfold runBisection in R1.
  assert (Ob : OrderedG (sp_dims (pp_space p)) (sp_box (pp_space p))).
  { intros k Hk. destruct Hor as [A [B C]]. clear - A B C Hk Hd. destruct k as [|[|[|k]]]; simpl; dims_cases Hd; try lia; auto. }
  pose proof (bisection_tiles _ Hd _ _ _ _ _ Ob R1) as T.
  assert (F : Forall (fun c => is_range c = true) cs).
  { apply Forall_forall. intros c Hc. destruct (tl_form _ _ _ _ _ T c Hc) as [u [bx [-> _]]]. reflexivity. }
  split; [|split].
  - intros i Hi. destruct (tl_cover _ _ _ _ _ T i Hi) as [u G]. exists u. split; [|apply O; auto].
    eapply tiles_inside; eauto.
  - intros t u i Ht Hu. apply O in Ht, Hu. eapply (tl_unique _ _ _ _ _ T); eauto.
  - intros t Ht. destruct (run_calls_kind _ _ _ _ R2) as [[F' R]|[N [F' R]]].
    + simpl in R. destruct Hq as [Q1 _].
      destruct (enumeration_gen _ _ _ _ _ _ _ t Q1 R R3 Ht) as [xs [E1 [E2 [E3 _]]]].
      exists (Z.of_nat (length xs)). split; auto. split; [lia|].
      apply Permutation_length in E3. rewrite !map_length in E3. rewrite E3.
      pose proof (tiles_count a_task (map to_app cs) t) as K. rewrite map_map in K.
      specialize (K (tl_nodup _ _ _ _ _ T)). lia.
    + exfalso. simpl in *. destruct cs as [|c cs]; [congruence|]. inversion F; subst. inversion F'; subst. congruence.
Qed.

Lemma bisection_1d_total q p : good_sorts q -> sp_dims (pp_space p) = 1%nat ->
  (forall o, pp_other p = Some o -> op_group o = pp_group p) ->
  0 < g_size (pp_group p) ->
  g_size (pp_group p) <= i0 (b_to (sp_box (pp_space p))) - i0 (b_from (sp_box (pp_space p))) ->
  exists l, run_partitioner q bisection_partitioner p None = Ok l /\
    forall t, 0 <= t < g_size (pp_group p) -> exists i, Owns l t i.
Proof.
  intros Hq Hd Ho Hg Hw. assert (Hv : valid_dims (sp_dims (pp_space p))) by (rewrite Hd; left; auto).
  destruct (bisection_1d _ Hd (S (Z.to_nat (g_size (pp_group p)))) (sp_box (pp_space p)) 0 (g_size (pp_group p)) ltac:(lia) ltac:(lia) ltac:(lia))
    as [cs [R1 [R2 R3]]].
  assert (Ob : OrderedG (sp_dims (pp_space p)) (sp_box (pp_space p))).
  { rewrite Hd. intros k Hk. assert (k = 0%nat) by lia. subst. simpl. lia. }
  pose proof (bisection_tiles _ Hv _ _ _ _ _ Ob R1) as T.
  destruct (accept_1d q bisection_partitioner p cs Hq ltac:(lia) Ho Hd) as [l Hl].
  - apply nonempty1. lia.
  - exact R1.
  - intros c Hc. destruct (R3 c Hc) as [u [bx [-> Ne]]]. exists u, (mkRange (Some (pp_space p)) bx), 1.
    destruct (tl_form _ _ _ _ _ T _ Hc) as [u' [bx' [E [K1 K2]]]]. injection E as <- <-.
    split; auto. split; auto. split; auto. split; auto. intros i Hi. simpl in Hi. unfold InBox in *.
    rewrite Hd in K2. specialize (K2 0%nat ltac:(lia)). simpl in K2. lia.
  - intros i Hi. destruct (tl_cover _ _ _ _ _ T i) as [u G]; [rewrite Hd; auto|]. rewrite Hd in G. eauto.
  - exists l. split; auto. intros t Ht.
    destruct (run_partitioner_ok _ _ _ _ _ Hq Hv ltac:(lia) Hl) as [cs' [l0 [S1 [_ [_ [_ [_ [_ [O _]]]]]]]]].
    simpl in S1. unfold runBisection in S1. rewrite R1 in S1. injection S1 as <-.
    destruct (R2 t Ht) as [bx K]. destruct (R3 _ K) as [u [bx' [E [i Ne]]]]. injection E as <- <-.
    exists i. apply O. exists (ACrange t (mkRange (Some (pp_space p)) bx) 1). split; auto. simpl. rewrite Hd. auto.
Qed.
