(* Property theorems C01-C03: ranges as index sets *)
From Coq Require Import ZArith List Bool Lia.
From Verif Require Import Base Model_Space Spec_Space Proof_Space.
Import ListNotations.
Open Scope Z_scope.

Definition sp2 : space := mkSpace 1 2 (mkBox (mkIdx 0 0 0) (mkIdx 10 10 0)).
Definition rg2 (a b c d : Z) : range := mkRange (Some sp2) (mkBox (mkIdx a b 0) (mkIdx c d 0)).

(* C01: laik_range_intersect on two non-empty ranges of one space; [g] is the
   arbitrary old content of the static result variable *)
Theorem C01_intersect : forall g s a b,
  valid_dims (sp_dims s) ->
  NonEmpty (sp_dims s) a -> NonEmpty (sp_dims s) b ->
  (exists c, range_intersect g (mkRange (Some s) a) (mkRange (Some s) b)
             = Ok (Some (mkRange (Some s) c))
      /\ NonEmpty (sp_dims s) c
      /\ forall i, InBox (sp_dims s) i c <-> InBox (sp_dims s) i a /\ InBox (sp_dims s) i b)
  \/ (range_intersect g (mkRange (Some s) a) (mkRange (Some s) b) = Ok None
      /\ DisjBox (sp_dims s) a b).
Proof. exact range_intersect_correct. Qed.
Print Assumptions C01_intersect.
Example C01_ex : range_intersect zbox (rg2 0 0 5 5) (rg2 3 2 9 4) = Ok (Some (rg2 3 2 5 4))
  /\ range_intersect zbox (rg2 0 0 5 5) (rg2 5 0 9 4) = Ok None.
Proof. split; reflexivity. Qed.

(* without the non-emptiness: the result is still the set intersection, but an
   empty result may be returned instead of nothing *)
Theorem C01_intersect_any : forall g s a b,
  valid_dims (sp_dims s) ->
  match range_intersect g (mkRange (Some s) a) (mkRange (Some s) b) with
  | Ok (Some c) => r_space c = Some s /\
       forall i, InBox (sp_dims s) i (r_box c) <-> InBox (sp_dims s) i a /\ InBox (sp_dims s) i b
  | Ok None => DisjBox (sp_dims s) a b
  | _ => False
  end.
Proof. exact range_intersect_any. Qed.
Print Assumptions C01_intersect_any.

(* the documented "return 0 if intersection is empty" does not hold for empty operands *)
Theorem C01_empty_operand_refuted : exists g s a b c,
  valid_dims (sp_dims s) /\
  range_intersect g (mkRange (Some s) a) (mkRange (Some s) b) = Ok (Some c) /\
  range_isEmpty c = true /\ DisjBox (sp_dims s) a b.
Proof. exact range_intersect_empty_refuted. Qed.
Print Assumptions C01_empty_operand_refuted.

(* C02 *)
Theorem C02_expand : forall s dst src,
  valid_dims (sp_dims s) ->
  NonEmpty (sp_dims s) dst -> NonEmpty (sp_dims s) src ->
  exists res, range_expand (mkRange (Some s) dst) (mkRange (Some s) src)
              = Ok (mkRange (Some s) res)
    /\ SubBox (sp_dims s) dst res /\ SubBox (sp_dims s) src res
    /\ forall c, SubBox (sp_dims s) dst c -> SubBox (sp_dims s) src c -> SubBox (sp_dims s) res c.
Proof. exact range_expand_correct. Qed.
Print Assumptions C02_expand.
Example C02_ex : range_expand (rg2 0 0 2 2) (rg2 5 1 6 9) = Ok (rg2 0 0 6 9)
  /\ NonEmpty 2 (r_box (rg2 0 0 2 2)) /\ NonEmpty 2 (r_box (rg2 5 1 6 9)).
Proof.
  split; [reflexivity|]. split; apply box_isEmpty_spec; reflexivity.
Qed.

(* C03: size, emptiness, containment, equality *)
Theorem C03_isEmpty : forall s b,
  valid_dims (sp_dims s) ->
  (range_isEmpty (mkRange (Some s) b) = true <-> forall i, ~ InBox (sp_dims s) i b).
Proof. exact range_isEmpty_correct. Qed.
Print Assumptions C03_isEmpty.

Theorem C03_size : forall s b n,
  valid_dims (sp_dims s) -> Ordered (sp_dims s) b ->
  HasCount (sp_dims s) b n -> n < 2 ^ 64 ->
  range_size (mkRange (Some s) b) = Ok n.
Proof. exact range_size_correct. Qed.
Print Assumptions C03_size.
Example C03_size_ex : Ordered 2 (r_box (rg2 3 2 9 4)) /\ HasCount 2 (r_box (rg2 3 2 9 4)) 12
   /\ range_size (rg2 3 2 9 4) = Ok 12.
Proof.
  split; [unfold Ordered; simpl; lia|]. split; [|reflexivity].
  exact (enum_HasCount 2 (r_box (rg2 3 2 9 4)) (or_intror (or_introl eq_refl))).
Qed.

(* beyond 2^64 indexes the size wraps around, and for borders in the wrong
   order the program stops at an assertion *)
Theorem C03_size_wraps : forall s b n m,
  valid_dims (sp_dims s) -> range_size (mkRange (Some s) b) = Ok n ->
  HasCount (sp_dims s) b m -> n = m mod 2 ^ 64.
Proof. exact range_size_mod. Qed.
Print Assumptions C03_size_wraps.

Theorem C03_size_abort : forall s b,
  valid_dims (sp_dims s) ->
  (range_size (mkRange (Some s) b) = Abort <-> ~ Ordered (sp_dims s) b).
Proof. exact range_size_abort. Qed.
Print Assumptions C03_size_abort.

Theorem C03_within_sound : forall s a b,
  valid_dims (sp_dims s) ->
  range_within_range (mkRange (Some s) a) (mkRange (Some s) b) = Ok true ->
  SubBox (sp_dims s) a b.
Proof. exact range_within_sound. Qed.
Print Assumptions C03_within_sound.

Theorem C03_within_exact : forall s a b,
  valid_dims (sp_dims s) -> NonEmpty (sp_dims s) a ->
  (SubBox (sp_dims s) a b ->
     range_within_range (mkRange (Some s) a) (mkRange (Some s) b) = Ok true) /\
  (~ SubBox (sp_dims s) a b ->
     range_within_range (mkRange (Some s) a) (mkRange (Some s) b) = Ok false).
Proof. exact range_within_exact. Qed.
Print Assumptions C03_within_exact.
Example C03_within_ex : range_within_range (rg2 3 2 5 4) (rg2 0 0 5 5) = Ok true
  /\ range_within_range (rg2 3 2 6 4) (rg2 0 0 5 5) = Ok false.
Proof. split; reflexivity. Qed.

(* an empty range need not be "within" a range although it has no index outside *)
Theorem C03_within_empty_refuted : exists s a b,
  valid_dims (sp_dims s) /\ SubBox (sp_dims s) a b /\
  range_within_range (mkRange (Some s) a) (mkRange (Some s) b) = Ok false.
Proof. exact range_within_empty_refuted. Qed.
Print Assumptions C03_within_empty_refuted.

Theorem C03_isEqual : forall s a b,
  valid_dims (sp_dims s) -> NonEmpty (sp_dims s) a ->
  (range_isEqual (mkRange (Some s) a) (mkRange (Some s) b) = true
   <-> EqBox (sp_dims s) a b).
Proof. exact range_isEqual_correct. Qed.
Print Assumptions C03_isEqual.
Example C03_isEqual_ex : range_isEqual (rg2 3 2 6 4) (rg2 3 2 6 4) = true
  /\ range_isEqual (rg2 3 2 6 4) (rg2 3 2 6 5) = false.
Proof. split; reflexivity. Qed.

(* ranges of different spaces, or without space, are never equal and never within each other *)
Theorem C03_other_space : forall r1 r2, (r_space r1 = None \/ r_space r1 <> r_space r2) ->
  range_isEqual r1 r2 = false /\ range_isEqual r2 r1 = false /\
  range_within_range r1 r2 <> Ok true /\ range_within_range r2 r1 <> Ok true.
Proof.
  intros [o1 b1] [o2 b2] H. simpl in H. unfold range_isEqual, range_within_range; simpl.
  destruct o1 as [s1|], o2 as [s2|]; try (repeat split; congruence).
  destruct H as [H|H]; [discriminate|].
  assert (E1 : space_eq s1 s2 = false) by (destruct (space_eq s1 s2) eqn:E; auto; apply space_eq_eq in E; congruence).
  assert (E2 : space_eq s2 s1 = false) by (destruct (space_eq s2 s1) eqn:E; auto; apply space_eq_eq in E; congruence).
  rewrite E1, E2. simpl. repeat split; congruence.
Qed.
Print Assumptions C03_other_space.
Example C03_other_space_ex : let s1 := mkSpace 1 1 (mkBox (mkIdx 0 0 0) (mkIdx 10 0 0)) in
  let s2 := mkSpace 2 1 (mkBox (mkIdx 0 0 0) (mkIdx 10 0 0)) in
  range_isEqual (space_asrange s1) (space_asrange s2) = false /\ range_isEqual (space_asrange s1) (space_asrange s1) = true.
Proof. split; reflexivity. Qed.

(* ranges of a space: within the space means every index is an index of the space *)
Theorem C03_within_space : forall s b,
  valid_dims (sp_dims s) -> NonEmpty (sp_dims s) b ->
  (range_within_space (mkRange (Some s) b) s = Ok true <-> SubBox (sp_dims s) b (sp_box s)).
Proof. exact range_within_space_correct. Qed.
Print Assumptions C03_within_space.
