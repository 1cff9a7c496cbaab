(* A list of independent instructions: the result does not depend on the order, as far as
   they use different streams. *)
From Coq Require Import ZArith List Bool Lia ZifyBool ZifyNat.
From Verif Require Import Base Model_Mem Model_Transition Model_Action Model_ActionTrans Model_ActionExec Spec_ActionTrans.
Import ListNotations.
Open Scope Z_scope.

Section Par.
  Context {X : Type} (d : X -> instr) (rd wr : X -> area).

  Definition need (c : chan) (l : list X) : Z :=
    fold_right Z.add 0 (map (fun x => if on c (i_in (d x)) then i_take (d x) else 0) l).
  Definition sends (m : mem) (c : chan) (l : list X) : list Z :=
    flat_map (fun x => if on c (i_out (d x)) then i_send (d x) m else []) l.
  (* the bytes x gets if the actions l1 come before *)
  Definition gets (s : pst) (l1 : list X) (x : X) : list Z :=
    match i_in (d x) with
    | Some c => firstn (bytes (i_take (d x))) (skipn (bytes (need c l1)) (p_in s c))
    | None => firstn (bytes (i_take (d x))) []
    end.

  Definition IndepX (a b : X) : Prop := Indep (rd a) (wr a) (rd b) (wr b).

  Record Par (l : list X) (s s' : pst) : Prop := {
    par_enough : forall c, need c l <= Z.of_nat (length (p_in s c));
    par_in : forall c, p_in s' c = skipn (bytes (need c l)) (p_in s c);
    par_out : forall c, p_out s' c = p_out s c ++ sends (p_mem s) c l;
    par_wr : forall l1 x l2 a, l = l1 ++ x :: l2 -> wr x a -> p_mem s' a = i_write (d x) (p_mem s) (gets s l1 x) a;
    par_no : forall a, (forall x, In x l -> ~ wr x a) -> p_mem s' a = p_mem s a }.

  Lemma need_nonneg c l : (forall x, In x l -> Frame (d x) (rd x) (wr x)) -> 0 <= need c l.
  Proof.
    unfold need. induction l as [|x l IH]; simpl; intros H; [lia|]. specialize (IH (fun y Hy => H y (or_intror Hy))).
    destruct (H x (or_introl eq_refl)) as [F _]. destruct (on c _); lia.
  Qed.

  Lemma skipn_skipn' {A} (l : list A) : forall a b, skipn a (skipn b l) = skipn (b + a) l.
  Proof. induction l as [|y l IH]; intros a b; [rewrite !skipn_nil; auto|]. destruct b; simpl; auto. Qed.

  Lemma on_refl c : on c (Some c) = true.
  Proof. unfold on. destruct (chan_eq_dec c c); congruence. Qed.
  Lemma on_true c o : on c o = true -> o = Some c.
  Proof. unfold on. destruct o; [|discriminate]. destruct (chan_eq_dec c c0); congruence. Qed.

  Lemma exec_par l : forall s s',
    (forall x, In x l -> Frame (d x) (rd x) (wr x)) -> ForallOrdPairs IndepX l ->
    exec_is (map d l) s = Some s' -> Par l s s'.
  Proof.
    induction l as [|x l IH]; intros s s' F O.
    - simpl. intros E. injection E as <-. split; intros; simpl; auto.
      + unfold need. simpl. lia.
      + unfold sends. simpl. rewrite app_nil_r. auto.
      + destruct l1; discriminate.
    - inversion O as [|? ? Ox Ol]; subst. cbn [map exec_is]. unfold exec_i.
      set (avail := match i_in (d x) with Some c => p_in s c | None => [] end).
      destruct (Z.of_nat (length avail) <? i_take (d x)) eqn:El; [discriminate|]. intros E.
      match type of E with exec_is _ ?s1 = _ => set (s1v := s1) in * end.
      assert (Fx := F x (or_introl eq_refl)). assert (Fl : forall y, In y l -> Frame (d y) (rd y) (wr y)) by (intros; apply F; right; auto).
      specialize (IH s1v s' Fl Ol E). destruct IH as [I1 I2 I3 I4 I5].
      destruct Fx as (T0 & T1 & _ & W1 & W2).
      assert (Hlen : Z.of_nat (length (firstn (bytes (i_take (d x))) avail)) = i_take (d x)) by (rewrite firstn_length; unfold bytes; lia).
      assert (Hneed : forall c, need c (x :: l) = (if on c (i_in (d x)) then i_take (d x) else 0) + need c l) by reflexivity.
      assert (Hin : forall c, p_in s1v c = skipn (bytes (if on c (i_in (d x)) then i_take (d x) else 0)) (p_in s c)).
      { intros c. unfold s1v. simpl. destruct (on c (i_in (d x))); auto. }
      assert (Hx : forall c, on c (i_in (d x)) = true -> i_take (d x) <= Z.of_nat (length (p_in s c))).
      { intros c Hc. apply on_true in Hc. unfold avail in El. rewrite Hc in El. lia. }
      assert (Hn : forall c, 0 <= need c l) by (intros; apply need_nonneg; auto).
      assert (Hpre : forall c, need c (x :: l) <= Z.of_nat (length (p_in s c))).
      { intros c. rewrite Hneed. specialize (I1 c). rewrite Hin, skipn_length in I1. unfold bytes in I1.
        specialize (Hx c). specialize (Hn c). destruct (on c (i_in (d x))); [specialize (Hx eq_refl)|]; lia. }
      assert (Hmem : forall y, In y l -> forall a, rd y a -> p_mem s1v a = p_mem s a).
      { intros y Hy a Ha. unfold s1v. simpl. apply W1; [exact Hlen|]. rewrite Forall_forall in Ox. destruct (Ox y Hy) as (A1 & _ & _). intros Hw. apply (A1 a Hw Ha). }
      split.
      + auto.
      + intros c. rewrite I2, Hin, Hneed, skipn_skipn'. f_equal. unfold bytes. specialize (Hn c). destruct (on c (i_in (d x))); lia.
      + intros c. rewrite I3.
        assert (Ho : p_out s1v c = if on c (i_out (d x)) then p_out s c ++ i_send (d x) (p_mem s) else p_out s c) by (unfold s1v; reflexivity).
        rewrite Ho. clear Ho.
        change (sends (p_mem s) c (x :: l)) with ((if on c (i_out (d x)) then i_send (d x) (p_mem s) else []) ++ sends (p_mem s) c l).
        assert (Es : sends (p_mem s1v) c l = sends (p_mem s) c l).
        { clear -Hmem Fl. clearbody s1v. unfold sends. induction l as [|y l IH]; simpl; auto. rewrite IH; [|intros; apply Fl; right; auto|intros; apply Hmem with y0; auto; right; auto]. f_equal.
          destruct (on c (i_out (d y))); auto. destruct (Fl y (or_introl eq_refl)) as (_ & _ & _ & _ & W2). 
          assert (exists bs : list Z, Z.of_nat (length bs) = i_take (d y)) as (bs & Hbs) by (exists (repeat 0 (bytes (i_take (d y)))); rewrite repeat_length; destruct (Fl y (or_introl eq_refl)) as [T _]; unfold bytes; lia).
          apply (W2 (p_mem s1v) (p_mem s) bs Hbs). intros a Ha. apply Hmem with y; auto. left; auto. }
        rewrite Es. destruct (on c (i_out (d x))); [rewrite <- app_assoc|]; auto.
      + intros l1 y l2 a El' Hw. destruct l1 as [|z l1]; simpl in El'; injection El' as <- El'.
        * rewrite I5.
          -- unfold s1v. simpl. unfold gets, avail. destruct (i_in (d x)); auto.
          -- intros y Hy Hwy. rewrite Forall_forall in Ox. destruct (Ox y Hy) as (_ & A2 & _). apply (A2 a); auto.
        * assert (Hy : In y l) by (rewrite El'; apply in_elt).
          rewrite (I4 l1 y l2 a El' Hw). destruct (Fl y Hy) as (_ & _ & _ & _ & Wy).
          assert (Eg : gets s1v l1 y = gets s (x :: l1) y).
          { unfold gets. destruct (i_in (d y)) as [c|]; auto. rewrite Hin, skipn_skipn'. change (need c (x :: l1)) with ((if on c (i_in (d x)) then i_take (d x) else 0) + need c l1).
            f_equal. f_equal. unfold bytes. assert (0 <= need c l1) by (apply need_nonneg; intros; apply Fl; rewrite El'; apply in_or_app; auto). destruct (on c (i_in (d x))); lia. }
          assert (Hg : Z.of_nat (length (gets s (x :: l1) y)) = i_take (d y)).
          { destruct (Fl y Hy) as (Ty & Tn & _). unfold gets. destruct (i_in (d y)) as [c|] eqn:Ey.
            - rewrite firstn_length, skipn_length. specialize (Hpre c). subst l.
              assert (En : need c (x :: l1 ++ y :: l2) = need c (x :: l1) + (i_take (d y) + need c l2)).
              { change (x :: l1 ++ y :: l2) with ((x :: l1) ++ y :: l2). generalize (x :: l1). clear -Ey. intros q. unfold need. induction q as [|z q IH]; simpl; [rewrite Ey, on_refl; lia|]. rewrite IH. lia. }
              assert (0 <= need c l2) by (apply need_nonneg; intros; apply Fl; apply in_or_app; right; right; auto).
              assert (0 <= need c (x :: l1)) by (apply need_nonneg; intros; apply F; simpl in *; rewrite in_app_iff; tauto).
              unfold bytes. lia.
            - rewrite (Tn eq_refl). reflexivity. }
          rewrite Eg. destruct (Wy (p_mem s1v) (p_mem s) (gets s (x :: l1) y) Hg (fun a0 Ha0 => Hmem y Hy a0 Ha0)) as [_ Wv]. apply Wv; auto.
      + intros a Ha. rewrite I5 by (intros; apply Ha; right; auto). unfold s1v. simpl. apply W1; [exact Hlen|]. apply Ha. left; auto.
  Qed.

  Lemma exec_enough l : forall s,
    (forall x, In x l -> Frame (d x) (rd x) (wr x)) ->
    (forall c, need c l <= Z.of_nat (length (p_in s c))) -> exists s', exec_is (map d l) s = Some s'.
  Proof.
    induction l as [|x l IH]; intros s F N; [simpl; eauto|]. cbn [map exec_is]. unfold exec_i.
    assert (Fl : forall y, In y l -> Frame (d y) (rd y) (wr y)) by (intros; apply F; right; auto).
    assert (Hneed : forall c, need c (x :: l) = (if on c (i_in (d x)) then i_take (d x) else 0) + need c l) by reflexivity.
    assert (Hn : forall c, 0 <= need c l) by (intros; apply need_nonneg; auto).
    destruct (F x (or_introl eq_refl)) as (T0 & T1 & _).
    destruct (Z.of_nat (length (match i_in (d x) with Some c => p_in s c | None => [] end)) <? i_take (d x)) eqn:El.
    - exfalso. destruct (i_in (d x)) as [c|] eqn:Ei.
      + specialize (N c). rewrite Hneed, ?Ei, on_refl in N. specialize (Hn c). lia.
      + rewrite (T1 eq_refl) in El. simpl in El. lia.
    - apply IH; auto. intros c. simpl. specialize (N c). rewrite Hneed in N. specialize (Hn c). destruct (on c (i_in (d x))); auto.
      rewrite skipn_length. unfold bytes. lia.
  Qed.
End Par.
