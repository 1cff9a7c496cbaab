(* laik_aseq_combineActions emits the classes. *)
From Coq Require Import ZArith List Bool Lia ZifyBool ZifyNat Permutation.
From Verif Require Import Base Model_Space Model_Mem Model_Transition Model_Action Model_ActionTrans Model_ActionExec Spec_ActionTrans.
From Verif Require Import Proof_Type Proof_Comb1 Proof_Comb2 Proof_Comb3 Proof_Comb4.
Import ListNotations.
Open Scope Z_scope.

Lemma obind_ok {A B} (x : outcome A) (f : A -> outcome B) y : obind x f = Ok y -> exists z, x = Ok z /\ f z = Ok y.
Proof. destruct x; simpl; try discriminate. eauto. Qed.
Lemma cassert_ok {A} b (x : outcome A) y : cassert b x = Ok y -> b = true /\ x = Ok y.
Proof. unfold cassert. destruct b; [auto|discriminate]. Qed.
Lemma add_action_ok r p a : add_action r p = Ok a -> r < 255 /\ a = mkAct r p.
Proof. unfold add_action. intros H. apply cassert_ok in H as [H E]. injection E as <-. split; auto. lia. Qed.

Ltac oinv H :=
  match type of H with
  | obind _ _ = Ok _ => let z := fresh "z" in let E := fresh "E" in apply obind_ok in H as (z & E & H)
  | cassert _ _ = Ok _ => let E := fresh "E" in apply cassert_ok in H as [E H]
  end.

Section Pass.
  Variables (cx : actx) (id cr : Z).
  Hypothesis (He : 0 < cx_es cx).

  Lemma pass_eq l : forall prev off ro acts off' ro',
    comb_pass cx id cr prev l off ro = Ok (acts, off', ro') -> pos a_cnt l -> Forall (fun a => 0 <= a_round a) l -> 0 <= off ->
    (off + msum (classes prev l off)) * cx_es cx < 2 ^ 32 ->
    acts = flat_map (emit cx id) (classes prev l off) /\ off' = off + msum (classes prev l off) /\
    Forall (fun c => is_merged c = true -> exists i o, gives_input cx (a_par (c_rep c)) = Ok i /\ wants_output cx (a_par (c_rep c)) = Ok o) (classes prev l off).
  Proof.
    induction l as [|a l IH]; intros prev off ro acts off' ro' H P R Ho B.
    - simpl in H. injection H as <- <- <-. simpl. repeat split; auto. unfold msum. simpl. lia.
    - inversion P as [|? ? Pa Pl]; subst. inversion R as [|? ? Ra Rl]; subst. cbn [comb_pass] in H. cbn [classes] in *. unfold np in *.
      destruct (existsb (fun b => same_kind b a) prev) eqn:Ex; cbn [negb] in *; [apply (IH _ _ _ _ _ _ H); auto|].
      set (c := mkC a (members a l) off) in *.
      assert (Pm : pos a_cnt (c_ms c)) by (unfold c; simpl; rewrite members_cons; constructor; auto; apply pos_filter; auto).
      change (msum (c :: classes (a :: prev) l (off + c_sum c))) with (c_sum c + msum (classes (a :: prev) l (off + c_sum c))) in *.
      pose proof (msum_le l (a :: prev) (off + c_sum c) Pl) as Hm. set (rest := classes (a :: prev) l (off + c_sum c)) in *.
      assert (Hcs : 0 <= csum (c_ms c)) by (apply tot_nonneg; auto).
      assert (Hc : 0 <= c_sum c) by (unfold c_sum; destruct (is_merged c); lia).
      assert (Kr : c_rep c = a) by reflexivity. assert (Ko : c_off c = off) by reflexivity. assert (Km : c_ms c = members a l) by reflexivity.
      clearbody c. cbn [flat_map].
      destruct (mergeable (a_par a)) eqn:Em.
      + replace (filter (same_kind a) (a :: l)) with (c_ms c) in H by (rewrite Km; unfold members; rewrite Em; auto).
        assert (Gt : (Z.of_nat (length (c_ms c)) >? 1) = is_merged c) by (unfold is_merged; lia). rewrite Gt in H.
        destruct (is_merged c) eqn:Mc.
        * oinv H. oinv H. oinv H. oinv H. oinv H. oinv H. oinv H. oinv H. oinv H.
          destruct z5 as [[ra ro1] rr]. cbn [fst snd] in H. injection H as <- <- <-.
          assert (Sc : c_sum c = csum (c_ms c)) by (unfold c_sum; rewrite Mc; auto).
          assert (C1 : cnt_sum (c_ms c) = csum (c_ms c)) by (apply cnt_sum_plain; auto; nia).
          assert (C2 : u32 (off * cx_es cx) = off * cx_es cx) by (apply u32_id; nia).
          assert (C3 : u32 (off + csum (c_ms c)) = off + c_sum c) by (rewrite Sc; apply u32_id; nia).
          rewrite C1 in *. rewrite C3 in *. rewrite C2 in *.
          apply add_action_ok in E4 as [Lr E4]. subst z3.
          destruct (IH _ _ _ _ _ _ E7 Pl Rl) as (I1 & I2 & I4); [lia|fold rest; nia|]. fold rest in I1, I2, I4.
          assert (Zp : z2 = rpar (a_par a) id (off * cx_es cx) (csum (c_ms c))).
          { unfold rbuf_par in E3. destruct (a_par a); try discriminate Em; try (injection E3 as <-; reflexivity);
              apply cassert_ok in E3 as [_ E3]; injection E3 as <-; reflexivity. }
          assert (Z1 : z1 = e0 cx id c).
          { unfold e0. rewrite Mc. cbn [andb]. unfold gi. rewrite Kr, Ko, E. cbn [ok_true]. rewrite <- (ces_plain cx src_addr (c_ms c) He Pm off Ho) by nia.
            destruct z; [|injection E1 as <-; auto]. apply obind_ok in E1 as (q & Eq & E1). apply add_action_ok in Eq as [_ ->]. injection E1 as <-. auto. }
          assert (Z4 : z4 = e2 cx id c).
          { unfold e2. rewrite Mc. cbn [andb]. unfold wo. rewrite Kr, Ko, E0. cbn [ok_true]. rewrite <- (ces_plain cx dst_addr (c_ms c) He Pm off Ho) by nia.
            destruct z0; [|injection E5 as <-; auto]. apply obind_ok in E5 as (q & Eq & E5). apply add_action_ok in Eq as [_ ->]. injection E5 as <-. auto. }
          split; [|split; [lia|]].
          -- unfold emit. rewrite Z1, Z4, I1, Zp. unfold e1. rewrite Mc, Kr, Ko. rewrite <- !app_assoc. auto.
          -- constructor; auto. intros _. rewrite Kr. exists z, z0. auto.
        * oinv H. oinv H. oinv H. destruct z1 as [[ra ro1] rr]. cbn [fst snd] in H. injection H as <- <- <-.
          assert (Sc : c_sum c = 0) by (unfold c_sum; rewrite Mc; auto). apply add_action_ok in E0 as [Lr ->].
          assert (Zp : z = a_par a) by (unfold readd_par in E; destruct (a_par a); try discriminate Em; try (injection E as <-; reflexivity); apply cassert_ok in E as [_ E]; injection E as <-; reflexivity).
          replace off with (off + c_sum c) in E1 at 1 by lia.
          destruct (IH _ _ _ _ _ _ E1 Pl Rl) as (I1 & I2 & I4); [lia|fold rest; lia|]. fold rest in I1, I2, I4.
          split; [|split; [lia|]].
          -- unfold emit, e0, e1, e2. rewrite Mc, Kr. cbn [andb app]. rewrite Zp, I1. destruct (a_par a); try discriminate Em; auto.
          -- constructor; auto. rewrite Mc. discriminate.
      + assert (Mc : is_merged c = false) by (unfold is_merged; rewrite Km; unfold members; rewrite Em; auto).
        assert (Sc : c_sum c = 0) by (unfold c_sum; rewrite Mc; auto).
        oinv H. oinv H. destruct z0 as [[ra ro1] rr]. cbn [fst snd] in H. injection H as <- <- <-.
        replace off with (off + c_sum c) in E0 at 1 by lia.
        destruct (IH _ _ _ _ _ _ E0 Pl Rl) as (I1 & I2 & I4); [lia|fold rest; lia|]. fold rest in I1, I2, I4.
        assert (Lt : (3 * a_round a + 1 <? 0) = false) by lia.
        split; [|split; [lia|]].
        * unfold emit, e0, e1, e2. rewrite Mc, Kr. cbn [andb app]. rewrite I1. unfold aseq_add in E. rewrite Lt in E.
          destruct (a_par a); try discriminate Em; try (injection E as <-; auto; fail); apply obind_ok in E as (q & Eq & E); apply add_action_ok in Eq as [_ ->]; injection E as <-; auto.
        * constructor; auto. rewrite Mc. discriminate.
  Qed.
End Pass.
