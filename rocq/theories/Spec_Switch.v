(* Vocabulary for C26: switching a 1d container to another partitioning, on all processes. *)
From Coq Require Import ZArith List Bool Lia.
From Verif Require Import Base Model_Space Model_RangeList Model_Mem Model_Layout Model_Partitioner Model_Group Model_Transition Model_Data
  Model_Action Model_ActionTrans Model_ActionExec Model_ActionExec2 Model_Net Model_Switch.
From Verif Require Import Spec_Space Spec_RangeList Spec_Partitioner Spec_Data Spec_Transition Spec_Reduce.
Import ListNotations.
Open Scope Z_scope.

(* In memory [mm], process [me] with ranges [l] and mappings [ml] has the value [v] for index [i]
   (a list of bytes): at base address + local index in the mapping for a range with [i] *)
Definition Holds (es : Z) (l : rlist) (me : Z) (ml : mlist) (mm : mem) (i : index) (v : list Z) : Prop :=
  exists n x m, rl_tidrange l me n = Ok (Some x) /\ InBox 1 i (t_box x) /\ aread (ml_maps ml) (t_mapNo x) = Ok m /\
    i0 (b_from (r_box (m_req m))) <= i0 i < i0 (b_to (r_box (m_req m))) /\
    v = rdb mm (m_base m + (i0 i - i0 (b_from (r_box (m_req m)))) * es) es.

(* element [j] of [c] elements of size [es] *)
Definition element (es j : Z) (v : list Z) : list Z := firstn (Z.to_nat es) (skipn (Z.to_nat (j * es)) v).
(* the operation works on each element on its own, giving elements of the right size *)
Record Elementwise (T : dtype) (es : Z) (r : redop) : Prop := {
  ew_size : forall c, 0 < c -> Sized T es r c;
  ew_red : forall c j a b, 0 <= j < c -> Z.of_nat (length a) = c * es -> Z.of_nat (length b) = c * es ->
    element es j (dt_red T r c a b) = dt_red T r 1 (element es j a) (element es j b);
  ew_init : forall c j, 0 <= j < c -> element es j (dt_init T r c) = dt_init T r 1 }.

(* Limits of reductions by messages (C32): consecutive indexes with the same owners, not exactly
   one, have at most 32 owners and less than 4 GB together; if nobody wants the result, 8 owners *)
Definition Reducible (es : Z) (fl tl : rlist) : Prop :=
  forall a b ts, a < b -> NoDup ts -> length ts <> 1%nat -> (forall i t, a <= i0 i < b -> (In t ts <-> Owns fl t i)) ->
    (length ts <= 32)%nat /\ (b - a) * es * Z.of_nat (length ts) < 2 ^ 32 /\
    ((forall i t, a <= i0 i < b -> ~ Owns tl t i) -> (length ts <= 8)%nat).

(* temporary buffers: [place id] is the address of buffer [id] reserved by the actions. They do
   not overlap with each other and the given blocks in use (see C31) *)
Definition Reserves (acts : list action) (id size : Z) : Prop := exists r off, In (mkAct r (BufReserve size id off)) acts.
Definition BuffersFor (acts : list action) (place : Z -> Z) (used : list (Z * Z)) : Prop :=
  (forall id size b, Reserves acts id size -> In b used -> AwayB (place id, size) b) /\
  (forall id size id' size', Reserves acts id size -> Reserves acts id' size' -> id <> id' -> AwayB (place id, size) (place id', size')).

(* a process before a switch: active mappings, mappings to be used next, memory *)
Record proc := mkProc {
  pc_old : mlist; pc_next : mlist; pc_mem : mem;
  pc_from : npart; pc_to : npart;   (* the partitionings as known to the process *)
  pc_ops : tops;                    (* the transition calculated by the process *)
  pc_addr : Z -> Z }.               (* the addresses returned by the allocator *)
Record Ready (d : dcont) (qb : list border -> list border) (N : Z) (fl tl : rlist) (red : redop) (me : Z) (x : proc) : Prop := {
  rd_old : GoodList (dc_space d) (dc_es d) (pc_old x);
  rd_oldmaps : Covers fl me (pc_old x);
  rd_own : OwnRanges (dc_space d) tl me;
  rd_next : prepare_maps d tl me = Ok (pc_next x);
  rd_fresh : FreshFor (dc_es d) (pc_addr x) (pc_next x) (blocks (pc_old x));
  rd_sees : Sees (dc_space d) N me fl tl (pc_from x) (pc_to x);
  rd_calc : exists tr, calc_transition qb (dc_space d) (Some (pc_from x)) (Some (pc_to x)) DF_Preserve red = Ok (Some tr) /\ tr_ops tr = pc_ops x }.

(* The expected value of index [i] after the switch: the value of the only process which had it,
   or the reduction of all values (the neutral element without, and the value itself for one). [ts]: the processes which had it, in some order *)
Definition Expected (es : Z) (T : dtype) (red : redop) (fl : rlist) (x : Z -> proc) (i : index) (v : list Z) : Prop :=
  exists ts vs, NoDup ts /\ (forall t, In t ts <-> Owns fl t i) /\
    Forall2 (fun t w => Holds es fl t (pc_old (x t)) (pc_mem (x t)) i w) ts vs /\
    v = reduce_all T red 1 vs.
