(* C65: MPI ranks in the communicator of a group are the process numbers of the group *)
From Coq Require Import ZArith List Bool Lia ZifyBool ZifyNat.
From Verif Require Import Base Model_Space Model_RangeList Spec_RangeList Model_Partitioner Model_Group Spec_Group
  Proof_Group Proof_Group3 Prop_Group Model_MpiComm Spec_MpiComm Proof_MpiComm.
Import ListNotations.
Open Scope Z_scope.

(* From a world of any size, after any sequence of shrinks: all calls return (no failing
   assertion, no process waits forever), also in processes removed before. Every process
   sees the group of the locations left over and its own number in it. A process of the
   group has a communicator in which MPI ranks are process numbers. *)
Theorem C65_ranks : forall gid n path, 0 <= n -> ValidPath n path ->
  exists sys, mpi_shrinks (mpi_start gid n) path = Ok sys /\ Z.of_nat (length sys) = n /\
    forall me p, nth_error sys me = Some p ->
      Group (mp_group p) /\ IsMyId (mp_group p) (Z.of_nat me) /\
      g_loc (mp_group p) = left_over (zcount n) path /\
      (0 <= g_myid (mp_group p) -> exists c, mp_comm p = Some c /\ SameRanks (mp_group p) c).
Proof.
  intros gid n path N V.
  destruct (shrinks_ok path _ _ _ (start_inv gid n N) V) as [sys [g [E [I L]]]]. simpl in L.
  exists sys. split; auto. destruct I as [I1 I2 I3 I4]. split; [lia|].
  intros me p Hp. destruct (I4 me p Hp) as [A [B C]].
  assert (G : Group (mp_group p)) by (rewrite A; destruct I2; constructor; auto).
  split; auto. split; auto. split; [rewrite A; exact L|].
  intros M. exists (g_loc g). split; auto. rewrite A. split; [simpl; apply (gr_len g I2)|].
  pose proof (gr_len g I2). intros t lid. unfold At. simpl. split.
  - intros [X Y]. split; auto. lia.
  - intros [X Y]. split; auto. assert (Z.to_nat t < length (g_loc g))%nat by (apply nth_error_Some; congruence). lia.
Qed.

(* So all processes of the group have the same communicator, and a message sent to process
   [t] of the group goes to the location of [t] *)
Theorem C65_same : forall gid n path sys a b p q ca cb, 0 <= n -> ValidPath n path ->
  mpi_shrinks (mpi_start gid n) path = Ok sys ->
  nth_error sys a = Some p -> nth_error sys b = Some q ->
  0 <= g_myid (mp_group p) -> 0 <= g_myid (mp_group q) -> mp_comm p = Some ca -> mp_comm q = Some cb ->
  ca = cb /\ nth_error ca (Z.to_nat (g_myid (mp_group q))) = Some (Z.of_nat b).
Proof.
  intros gid n path sys a b p q ca cb N V E Ha Hb Pa Pb Ca Cb.
  destruct (C65_ranks gid n path N V) as [sys' [E' [_ R]]]. assert (sys' = sys) by congruence. subst sys'.
  destruct (R a p Ha) as [Ga [Ia [La Ka]]]. destruct (R b q Hb) as [Gb [Ib [Lb Kb]]].
  destruct (Ka Pa) as [x [X1 [X2 X3]]]. destruct (Kb Pb) as [y [Y1 [Y2 Y3]]].
  assert (x = ca) by congruence. assert (y = cb) by congruence. subst x y.
  assert (XA : ca = g_loc (mp_group p)).
  { apply ListFacts.nth_error_ext. intros k. pose proof (gr_len _ Ga). destruct (nth_error ca k) as [l|] eqn:K.
    - destruct (proj2 (X3 (Z.of_nat k) l)) as [_ Z0]; [rewrite Nat2Z.id; split; [lia|auto]|]. rewrite Nat2Z.id in Z0. auto.
    - symmetry. apply nth_error_None. apply nth_error_None in K. lia. }
  assert (YB : cb = g_loc (mp_group q)).
  { apply ListFacts.nth_error_ext. intros k. pose proof (gr_len _ Gb). destruct (nth_error cb k) as [l|] eqn:K.
    - destruct (proj2 (Y3 (Z.of_nat k) l)) as [_ Z0]; [rewrite Nat2Z.id; split; [lia|auto]|]. rewrite Nat2Z.id in Z0. auto.
    - symmetry. apply nth_error_None. apply nth_error_None in K. lia. }
  assert (ca = cb) by congruence. split; auto. rewrite H, YB. destruct Ib as [[_ Ib]|[Ib _]]; [auto|lia].
Qed.

(* a list with a process number outside of the group ends the program *)
Theorem C65_invalid : forall gid n gid' rm x, 0 < n -> In x rm -> ~ (0 <= x < n) ->
  mpi_shrink (mpi_start gid n) gid' rm = Abort.
Proof.
  intros gid n gid' rm x N I X. unfold mpi_shrink, mpi_start, zcount. destruct (Z.to_nat n) as [|k] eqn:K; [lia|].
  simpl. rewrite (C19_shrink_abort gid' _ rm x); auto.
  pose proof (start_inv gid n ltac:(lia)) as S. destruct (mi_group _ _ _ S) as [A B C]. constructor; auto.
Qed.

(* Uniting groups: with the MPI backend this ends the program whenever a new group has to
   be made *)
Theorem C65_union_refuted : forall q junk gid myloc g1 g2 g c, is_qsort lididx_cmp q -> Group g1 -> Group g2 ->
  new_union_group q junk gid myloc g1 g2 = Ok (UNew g) -> update_call (mkMproc g1 c) g = Abort.
Proof.
  intros q junk gid myloc g1 g2 g c Q G1 G2 E.
  destruct (C20_union q junk gid myloc g1 g2 Q G1 G2) as [u [E' [G [I _]]]].
  assert (u = UNew g) by congruence. subst u. simpl in G, I.
  assert (g_size g <> g_size g1).
  { unfold new_union_group in E. apply obind_ok in E. destruct E as [l1 [_ E]]. apply obind_ok in E. destruct E as [l2 [_ E]].
    cbv zeta in E. destruct (_ =? g_size g1) eqn:N; [discriminate|]. destruct (_ =? g_size g2); [discriminate|].
    apply obind_ok in E. destruct E as [s [_ E]]. injection E as <-. simpl. lia. }
  assert (L : (length (g_loc g1) <= length (g_loc g))%nat).
  { apply NoDup_incl_length; [apply (gr_nodup g1 G1)|]. intros x X. apply I. auto. }
  pose proof (gr_len g1 G1). pose proof (gr_len g G).
  unfold update_call. destruct (g_parent g); auto. simpl. replace (g_size g <=? g_size g1) with false by lia. reflexivity.
Qed.

(* 6 processes, two shrinks in a row *)
Example C65_case : ValidPath 6 [(1, [4; 1; 4]); (2, [0])] /\
  exists sys p q r, mpi_shrinks (mpi_start 0 6) [(1, [4; 1; 4]); (2, [0])] = Ok sys /\
    nth_error sys 5 = Some p /\ g_myid (mp_group p) = 2 /\ mp_comm p = Some [2; 3; 5] /\
    nth_error sys 0 = Some q /\ g_myid (mp_group q) = -1 /\ mp_comm q = Some [] /\
    nth_error sys 1 = Some r /\ g_myid (mp_group r) = -1 /\ mp_comm r = None /\
    left_over (zcount 6) [(1, [4; 1; 4]); (2, [0])] = [2; 3; 5].
Proof.
  split.
  - simpl. split; [intros x H; intuition lia|]. split; [intros x H; intuition lia|exact I].
  - eexists _, _, _, _. split; [vm_compute; reflexivity|]. vm_compute. repeat split.
Qed.

(* two groups of which none contains the other *)
Example C65_union_case : exists g1 g2 g, Group g1 /\ Group g2 /\ is_qsort lididx_cmp (isort lididx_cmp) /\
  new_union_group (isort lididx_cmp) 0 3 0 g1 g2 = Ok (UNew g) /\ g_loc g = [0; 1; 2].
Proof.
  exists (mkGroup 1 2 0 None [] [] None [] [] [0; 1]), (mkGroup 2 2 1 None [] [] None [] [] [2; 0]). eexists.
  split; [split; simpl; auto; [repeat constructor; simpl; intuition lia|intros lid H; intuition lia]|].
  split; [split; simpl; auto; [repeat constructor; simpl; intuition lia|intros lid H; intuition lia]|].
  split; [exact (proj1 C20_case)|]. split; [vm_compute; reflexivity|reflexivity].
Qed.

Print Assumptions C65_ranks.
Print Assumptions C65_same.
Print Assumptions C65_invalid.
Print Assumptions C65_union_refuted.
Print Assumptions C65_case.
Print Assumptions C65_union_case.
