(* Property C31: temporary buffers never overlap or overflow. *)
From Coq Require Import ZArith List Bool Lia ZifyBool ZifyNat.
From Verif Require Import Base Model_Space Model_Mem Model_Transition Model_Action Model_ActionTrans Model_ActionExec Model_ActionExec2 Spec_Action Spec_ActionTrans Spec_Alloc.
From Verif Require Import Proof_Comb4 Proof_Comb5 Proof_Alloc.
Import ListNotations.
Open Scope Z_scope.

(* There is a place for each reservation in the new buffer, such that
   - the buffer has exactly the bytes of all reservations,
   - each reservation is inside of it, and different ones do not overlap,
   - each action is kept, in its round and position, with the address which results from
     this place, and reservations are removed,
   - what an action accesses is inside of its reservation,
   - executing the new sequence does exactly the same as executing the old one with the
     reservations at these places, whatever the data type, the layouts and other actions do. *)
Theorem C31_allocation cx buf s s' :
  Reserving cx (as_acts s) -> alloc_buffer cx buf s = Ok (true, s') ->
  let nbuf := Z.of_nat (length (as_bufs s)) in let rs := reservations (as_acts s) in
  exists off : Z -> Z,
    as_bufs s' = as_bufs s ++ [(buf, bytes_of rs)] /\ 0 < bytes_of rs /\ as_nres s' = 0 /\
    (forall id n, In (id, n) rs -> 0 <= off id /\ off id + n <= bytes_of rs) /\
    (forall id n id' n', In (id, n) rs -> In (id', n') rs -> id <> id' -> off id + n <= off id' \/ off id' + n' <= off id) /\
    as_acts s' = flat_map (placed buf nbuf off) (as_acts s) /\
    (forall a id o n, In a (as_acts s) -> reference (cx_es cx) a = Some (id, o, n) -> is_new id = true ->
       exists m, In (id, m) rs /\ 0 <= o /\ 0 <= n /\ o + n <= m) /\
    (forall place T oth, place nbuf = buf -> (forall id n, In (id, n) rs -> place id = buf + off id) ->
       forall st, exec_seq (den2 cx place T oth) (as_acts s') st = exec_seq (den2 cx place T oth) (as_acts s) st).
Proof.
  intros R H nbuf rs. destruct (alloc_inv cx buf s s' R H) as (Hb & Hn & Hr & -> & I). cbn [as_acts as_bufs as_nres]. fold nbuf rs in Hb, Hn, Hr, I |- *.
  destruct (tab_bd cx s R) as [ND BD]. exists (offof (tab s)).
  assert (Tb : forall id n, In (id, n) rs -> exists o, In (id, (o, n)) (tab s) /\ offof (tab s) id = o).
  { intros id n Hi. unfold rs in Hi. rewrite <- (table_snd (as_acts s) 0) in Hi. apply in_map_iff in Hi as ([k [o q]] & E & Hi). simpl in E. injection E as -> ->.
    exists o. split; auto. unfold offof. rewrite (find_in _ _ (o, n)); auto. }
  assert (Tr : forall id o n, In (id, (o, n)) (tab s) -> In (id, n) rs).
  { intros id o n Hi. unfold rs. rewrite <- (table_snd (as_acts s) 0). apply in_map_iff. exists (id, (o, n)). auto. }
  split; [auto|split; [auto|split; [auto|split; [|split; [|split; [auto|split]]]]]].
  - intros id n Hi. destruct (Tb id n Hi) as (o & Ho & ->). apply table_bound in Ho; [|exact (rv_size _ _ R)]. fold rs in Ho. lia.
  - intros id n id' n' Hi Hi' Hne. destruct (Tb id n Hi) as (o & Ho & ->). destruct (Tb id' n' Hi') as (o' & Ho' & ->).
    pose proof (table_order (as_acts s) 0 (rv_size _ _ R)) as O. fold (tab s) in O. destruct (ForallOrdPairs_In O _ _ Ho Ho') as [E|[E|E]]; simpl in E; try lia.
    injection E as ? ? ?. congruence.
  - intros a id o n Ha Hr' Hnw. destruct (rv_ref _ _ R a id o n Ha Hr') as [A1 A2].
    assert (exists c, rb_ref (a_par a) = Some (id, o, c) /\ n = c * cx_es cx) as (c & Hc & ->).
    { unfold reference in Hr'. destruct (a_par a); try discriminate Hr'; injection Hr' as <- <- <-; eexists; split; reflexivity. }
    destruct (I a Ha id o c Hc Hnw) as (_ & ro & m & Hm & Hle). exists m. repeat split; try lia. eapply Tr; eauto.
  - intros place T oth Hp0 Hp st. apply seq_flat.
    + intros. apply placed_round.
    + intros a st' Ha. eapply placed_exec; eauto. intros id Hnw (o & c & Hc). destruct (I a Ha id o c Hc Hnw) as (_ & ro & m & Hm & _). apply (Hp id m). eapply Tr; eauto.
Qed.
Print Assumptions C31_allocation.

(* No assertion fails if every reference is to an earlier reservation, and inside of it. A
   buffer is allocated if and only if some byte is reserved. *)
Theorem C31_no_abort cx buf s :
  0 < cx_es cx -> Reserving cx (as_acts s) -> Sound (cx_es cx) (as_nres s) [] (as_acts s) ->
  as_nres s = Z.of_nat (length (reservations (as_acts s))) -> (forall a, In a (as_acts s) -> a_round a < 255) ->
  Z.of_nat (length (as_bufs s)) < 5 ->
  exists b s', alloc_buffer cx buf s = Ok (b, s') /\ (b = true <-> 0 < bytes_of (reservations (as_acts s))).
Proof. apply alloc_ok. Qed.
Print Assumptions C31_no_abort.

(* A reference to an ID which is not reserved before, or outside of its reservation, is
   detected. *)
Theorem C31_detected cx buf s b s' a id o n :
  Reserving cx (as_acts s) -> alloc_buffer cx buf s = Ok (b, s') ->
  In a (as_acts s) -> reference (cx_es cx) a = Some (id, o, n) -> is_new id = true ->
  exists m, In (id, m) (reservations (as_acts s)) /\ o + n <= m.
Proof.
  intros R H Ha Hr Hn. destruct (tab_bd cx s R) as [ND BD]. unfold alloc_buffer in H. repeat oinv H. destruct z as [[acts bs] r].
  set (nbuf := Z.of_nat (length (as_bufs s))) in *.
  destruct (pass_inv (cx_es cx) (as_nres s) nbuf (tab s) ND BD (as_acts s) [] 0 0 acts bs r) as (_ & _ & _ & I & _); auto.
  { exact (rv_size _ _ R). } { lia. } { apply (rv_total _ _ R). } { intros e []. } { intros a' Ha'. eapply off_ok; eauto. }
  assert (exists c, rb_ref (a_par a) = Some (id, o, c) /\ n = c * cx_es cx) as (c & Hc & ->).
  { unfold reference in Hr. destruct (a_par a); try discriminate Hr; injection Hr as <- <- <-; eexists; split; reflexivity. }
  destruct (I a Ha id o c Hc Hn) as (_ & ro & m & Hm & Hle). exists m. split; auto.
  rewrite <- (table_snd (as_acts s) 0). apply in_map_iff. exists (id, (ro, m)). auto.
Qed.
Print Assumptions C31_detected.

(* ---- a case ---- *)
Ltac sound1 :=
  lazymatch goal with
  | |- True => exact I
  | |- 100 <= _ < _ /\ _ => split; [lia|]
  | |- _ => split; [intros ? ? ? H; vm_compute in H; try discriminate H; injection H as <- <- <-; intros Hn; try discriminate Hn; (split; [lia|]; eexists; (split; [simpl; eauto|simpl; lia]))|
            split; [intros ? ? ? H; vm_compute in H; try discriminate H; injection H as <- <- <-; intros Hn; try discriminate Hn; (split; [discriminate|]; eexists; (split; [simpl; eauto|simpl; lia]))|]]
  end.
Definition al_cx : actx := mkCtx 8 1 4 0 [[0;1]; [1;2]] None None.
Definition al_seq : aseq := mkSeq
  [mkAct 0 (BufReserve 40 100 0); mkAct 0 (CopyToRBuf [mkCE 1000 0 16; mkCE 1100 16 24] 100 0); mkAct 1 (RBufSend 100 0 5 1);
   mkAct 0 (BufReserve 24 101 0); mkAct 1 (RBufRecv 101 8 2 1); mkAct 2 (RBufLocalReduce RO_Sum 101 16 3000 1);
   mkAct 2 (RBufCopy 1 8 3000 1); mkAct 2 (BufSend 3000 1 2)] 2 [(7000, 80); (8000, 16)] 0.
Definition al_res : aseq := Eval vm_compute in match alloc_buffer al_cx 9000 al_seq with Ok (_, s) => s | _ => al_seq end.
Example C31_case_acts : alloc_buffer al_cx 9000 al_seq = Ok (true, al_res) /\ as_bufs al_res = [(7000, 80); (8000, 16); (9000, 64)] /\
  as_acts al_res = [mkAct 0 (CopyToBuf [mkCE 1000 0 16; mkCE 1100 16 24] 9000); mkAct 1 (BufSend 9000 5 1); mkAct 1 (BufRecv 9048 2 1);
    mkAct 2 (RBufLocalReduce RO_Sum 2 56 3000 1); mkAct 2 (RBufCopy 1 8 3000 1); mkAct 2 (BufSend 3000 1 2)].
Proof. repeat split. Qed.
Example C31_case : Reserving al_cx (as_acts al_seq) /\ Sound 8 (as_nres al_seq) [] (as_acts al_seq).
Proof.
  split.
  - constructor.
    + vm_compute. repeat constructor; simpl; intuition discriminate.
    + vm_compute. intuition; match goal with H : (_, _) = _ |- _ => injection H as <- <-; discriminate end.
    + reflexivity.
    + intros a id o n Ha. simpl in Ha. repeat (destruct Ha as [<-|Ha]; [intros H; vm_compute in H; try discriminate; injection H as <- <- <-; lia|]). destruct Ha.
    + intros a id o n Ha. simpl in Ha. repeat (destruct Ha as [<-|Ha]; [intros H; vm_compute in H; try discriminate; injection H as <- <- <-; simpl; lia|]). destruct Ha.
    + intros a id Ha Hn. simpl in Ha. repeat (destruct Ha as [<-|Ha]; [cbn [a_par]; auto; intros [(o & n & H)|(o & n & H)]; vm_compute in H; try discriminate; injection H as <- <- <-; discriminate|]). destruct Ha.
    + intros a Ha. simpl in Ha. repeat (destruct Ha as [<-|Ha]; [exact I|]). destruct Ha.
  - unfold al_seq. cbn [as_acts as_nres Sound reservation a_par is_new]. change (is_new 100) with true. change (is_new 101) with true. cbv iota.
    repeat sound1.
Qed.
Print Assumptions C31_case.

(* ---- limits of the implementation ---- *)

(* The size of the buffer is computed with 32 bits: two reservations of 2 GB get no buffer at
   all, but the actions are changed as if there was one. *)
Theorem C31_large_refuted : exists cx buf s s',
  (forall id n, In (id, n) (reservations (as_acts s)) -> 0 < n < 2 ^ 32) /\
  Sound (cx_es cx) (as_nres s) [] (as_acts s) /\
  alloc_buffer cx buf s = Ok (false, s') /\ as_bufs s' = [] /\
  exists a, In a (as_acts s') /\ reference (cx_es cx) a = Some (0, 0, 8).
Proof.
  exists al_cx, 9000, (mkSeq [mkAct 0 (BufReserve (2 ^ 31) 100 0); mkAct 0 (BufReserve (2 ^ 31) 101 0); mkAct 1 (RBufSend 100 0 1 1)] 2 [] 0).
  eexists. split; [|split; [|split; [vm_compute; reflexivity|split; [reflexivity|]]]].
  - intros id n H. vm_compute in H. intuition; match goal with H : (_, _) = _ |- _ => injection H as <- <-; lia end.
  - cbn [as_acts as_nres Sound reservation a_par is_new]. change (is_new 100) with true. change (is_new 101) with true. cbv iota.
    repeat sound1.
  - eexists. split; [right; right; left; reflexivity|]. reflexivity.
Qed.
Print Assumptions C31_large_refuted.

(* The check that an access is inside of its reservation is done with 32 bits, too: sending
   4 GB from a reservation of 8 bytes is accepted. *)
Theorem C31_check_refuted : exists cx buf s s' a id o n,
  alloc_buffer cx buf s = Ok (true, s') /\ In a (as_acts s) /\ reference (cx_es cx) a = Some (id, o, n) /\ is_new id = true /\
  forall m, In (id, m) (reservations (as_acts s)) -> m < o + n.
Proof.
  exists al_cx, 9000, (mkSeq [mkAct 0 (BufReserve 8 100 0); mkAct 1 (RBufSend 100 0 (2 ^ 29) 1)] 1 [] 0).
  eexists. eexists. exists 100, 0, (2 ^ 32). split; [vm_compute; reflexivity|]. split; [right; left; reflexivity|]. split; [reflexivity|]. split; [reflexivity|].
  intros m H. vm_compute in H. destruct H as [H|[]]. injection H as <-. reflexivity.
Qed.
Print Assumptions C31_check_refuted.
