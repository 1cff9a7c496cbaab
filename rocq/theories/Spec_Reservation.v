(* Specification vocabulary for reservations *)
From Coq Require Import ZArith List Bool Lia.
From Verif Require Import Base Model_Space Model_RangeList Model_Mem Model_Layout Model_Partitioner Model_Transition Model_Data
  Model_Reservation Spec_Space Spec_RangeList Spec_Partitioner Spec_Layout Spec_Data.
Import ListNotations.
Open Scope Z_scope.

(* [x] is one of the own ranges of the partitioning *)
Definition OwnRange (p : part) (x : trg) : Prop := exists n, rl_tidrange (pt_ranges p) (pt_me p) n = Ok (Some x).

(* Partitionings for which memory can be reserved: ranges in the same map have the same tag,
   which must be positive if there is more than one map *)
Record Reservable (sp : space) (p : part) : Prop := {
  rp_own : OwnRanges sp (pt_ranges p) (pt_me p);
  rp_fresh : rl_map_tid (pt_ranges p) = -1;
  rp_tag : forall x, OwnRange p x -> 0 <= t_tag x;
  rp_pos : forall x y, OwnRange p x -> OwnRange p y -> 0 < t_mapNo x -> 0 < t_tag y;
  rp_same : forall x y, OwnRange p x -> OwnRange p y -> t_mapNo x = t_mapNo y -> t_tag x = t_tag y }.

(* a new reservation, with partitionings added *)
Definition reserve (id : nat) (ps : list part) : resv := fold_left reservation_add ps (reservation_new id).

(* Partitionings to reserve for: all for the same group, and different objects are told apart *)
Record TogetherOk (sp : space) (me : Z) (ps : list part) : Prop := {
  tg_each : Forall (Reservable sp) ps;
  tg_me : Forall (fun p => pt_me p = me) ps;
  tg_group : forall p p', In p ps -> In p' ps -> pt_group p = pt_group p';
  tg_id : forall p p', In p ps -> In p' ps -> pt_id p = pt_id p' -> p = p' }.

(* the memory blocks (address, size) of a reservation *)
Definition res_blocks (r : resv) : list (Z * Z) :=
  match rv_maps r with Some bs => map (fun m => (m_start m, m_cap m)) bs | None => [] end.
Definition AwayAll (bl : list (Z * Z)) : Prop :=
  forall n k a b, n <> k -> nth_error bl n = Some a -> nth_error bl k = Some b -> AwayB a b.

(* with reservation [r] active, the element for index [i] in own range [x] of partitioning [p] is at address [a] *)
Definition Placed (d : dcont) (r : resv) (p : part) (x : trg) (i : index) (a : Z) : Prop :=
  exists ml m lm, prepare_maps_res d (Some r) p = Ok (Some ml) /\ aread (ml_maps ml) (t_mapNo x) = Ok m /\
    lmap_of (dc_es d) ml m = Ok lm /\ AddrOf lm i a.
