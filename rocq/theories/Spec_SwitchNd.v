(* Vocabulary for C55: switching a 2d or 3d container to another partitioning, on all processes. *)
From Coq Require Import ZArith List Bool Lia.
From Verif Require Import Base Model_Space Model_RangeList Model_Mem Model_Layout Model_Partitioner Model_Group Model_Transition Model_Data Model_Action Model_ActionTrans Model_ActionExec.
From Verif Require Import Spec_Space Spec_RangeList Spec_Partitioner Spec_Data Spec_Transition Spec_Switch Spec_Tcp2Exec Spec_ActionTrans.
Import ListNotations.
Open Scope Z_scope.

(* The address of index [i] in map [k], as a program calculates it: with base address and strides
   returned by laik_get_map_2d / laik_get_map_3d, relative to the first index of the map *)
Definition ElemAt (sp : space) (es : Z) (ml : mlist) (k : Z) (i : index) (a : Z) : Prop :=
  exists m, aread (ml_maps ml) k = Ok m /\
    let f := b_from (r_box (m_req m)) in
    (sp_dims sp = 2%nat -> exists base ysize ystride xsize, get_map_2d (Some ml) k = Ok (base, ysize, ystride, xsize) /\
       0 <= i0 i - i0 f < xsize /\ 0 <= i1 i - i1 f < ysize /\
       a = base + ((i1 i - i1 f) * ystride + (i0 i - i0 f)) * es) /\
    (sp_dims sp = 3%nat -> exists base zsize zstride ysize ystride xsize, get_map_3d (Some ml) k = Ok (base, zsize, zstride, ysize, ystride, xsize) /\
       0 <= i0 i - i0 f < xsize /\ 0 <= i1 i - i1 f < ysize /\ 0 <= i2 i - i2 f < zsize /\
       a = base + ((i2 i - i2 f) * zstride + (i1 i - i1 f) * ystride + (i0 i - i0 f)) * es).

(* In memory [mm], process [me] with ranges [l] and mappings [ml] has the value [v] for index [i]
   of its range number [n] *)
Definition HoldsAt (sp : space) (es : Z) (l : rlist) (me : Z) (ml : mlist) (mm : mem) (n : Z) (i : index) (v : list Z) : Prop :=
  exists x a, rl_tidrange l me n = Ok (Some x) /\ InBox (sp_dims sp) i (t_box x) /\ ElemAt sp es ml (t_mapNo x) i a /\ v = rdb mm a es.

(* a process before a switch (see Spec_Switch.v) with all ranges known *)
Record ReadyNd (d : dcont) (qb : list border -> list border) (N : Z) (fl tl : rlist) (me : Z) (x : proc) : Prop := {
  rn_old : GoodList (dc_space d) (dc_es d) (pc_old x);
  rn_oldmaps : Covers fl me (pc_old x);
  rn_own : OwnRanges (dc_space d) tl me;
  rn_next : prepare_maps d tl me = Ok (pc_next x);
  rn_fresh : FreshFor (dc_es d) (pc_addr x) (pc_next x) (blocks (pc_old x));
  rn_sees : SeesAll (dc_space d) N me fl tl (pc_from x) (pc_to x);
  rn_calc : exists tr, calc_transition qb (dc_space d) (Some (pc_from x)) (Some (pc_to x)) DF_Preserve RO_None = Ok (Some tr) /\ tr_ops tr = pc_ops x }.

(* what can be sent (C51, C52): elements up to 8189 bytes in binary mode; as text up to 9 bytes, in 2d *)
Definition FitsNd (sp : space) (bin : Z -> Z -> bool) (es : Z) : Prop :=
  forall a q, if bin a q then es <= 8189 else es <= 9 /\ sp_dims sp = 2%nat.

(* all own ranges of each process are in one map *)
Definition OneMap (l : rlist) : Prop := forall t n x, rl_tidrange l t n = Ok (Some x) -> t_mapNo x = 0.
