(* Specification vocabulary for the memory of data containers *)
From Coq Require Import ZArith List Bool Lia Permutation.
From Verif Require Import Base Model_Space Model_RangeList Model_Mem Model_Layout Model_Partitioner Model_Transition Model_Data
  Spec_Space Spec_RangeList Spec_Partitioner Spec_Layout.
Import ListNotations.
Open Scope Z_scope.

(* Own ranges of process [me] in a partitioning memory can be provided for: no empty ranges,
   maps are numbered 0, 1, ... in the order of the ranges (see C07 for when this is the case),
   not more than 2^64 indexes *)
Record OwnRanges (sp : space) (l : rlist) (me : Z) : Prop := {
  or_fz : FrozenList l; or_sp : rl_space l = sp; or_me : 0 <= me < rl_tids l;
  or_ne : forall n x, rl_tidrange l me n = Ok (Some x) -> NonEmpty (sp_dims sp) (t_box x);
  or_first : forall x, rl_tidrange l me 0 = Ok (Some x) -> t_mapNo x = 0;
  or_next : forall n x y, rl_tidrange l me n = Ok (Some x) -> rl_tidrange l me (n + 1) = Ok (Some y) ->
     t_mapNo y = t_mapNo x \/ t_mapNo y = t_mapNo x + 1;
  or_size : exists n, HasCount (sp_dims sp) (sp_box sp) n /\ n < two64 }.

(* Mapping [m], number [k] of the list, is backed by memory: by an area for the box [B] with [N]
   indexes around its required range *)
Record Backed (sp : space) (es : Z) (ml : mlist) (k : Z) (m : mapping) (lm : lmap) (B : box) (N : Z) : Prop := {
  bk_at : aread (ml_maps ml) k = Ok m;
  bk_lm : lmap_of es ml m = Ok lm;
  bk_good : GoodMap sp lm B N;
  bk_ne : NonEmpty (sp_dims sp) (r_box (m_req m));
  bk_count : HasCount (sp_dims sp) (r_box (m_req m)) (m_count m);
  bk_alc : m_alc m = mkRange (Some sp) B;
  bk_start : 0 < m_start m;
  bk_cap : N * es <= m_cap m;
  bk_base : AddrOf lm (b_from (r_box (m_req m))) (m_base m) }.

(* the mappings of a container in use, without reservation *)
Record GoodList (sp : space) (es : Z) (ml : mlist) : Prop := {
  gl_res : ml_res ml = None;
  gl_maps : forall k m, aread (ml_maps ml) k = Ok m ->
     m_lay m = None /\ m_sec m = k /\ m_reused m = -1 /\ exists lm B N, Backed sp es ml k m lm B N;
  gl_away : forall j k a b, j <> k -> aread (ml_maps ml) j = Ok a -> aread (ml_maps ml) k = Ok b ->
     Away (m_start a) (m_cap a) (m_start b) (m_cap b) }.

(* the maps of the list are those for the own ranges: the required range of a map is the
   smallest range with all own ranges with this map number *)
Record Covers (l : rlist) (me : Z) (ml : mlist) : Prop := {
  cv_count : rl_tidmapcount l me = Ok (Z.of_nat (length (ml_maps ml)));
  cv_in : forall n x, rl_tidrange l me n = Ok (Some x) ->
     exists m, aread (ml_maps ml) (t_mapNo x) = Ok m /\ SubBox (sp_dims (rl_space l)) (t_box x) (r_box (m_req m));
  cv_least : forall k m c, aread (ml_maps ml) k = Ok m ->
     (forall n x, rl_tidrange l me n = Ok (Some x) -> t_mapNo x = k -> SubBox (sp_dims (rl_space l)) (t_box x) c) ->
     SubBox (sp_dims (rl_space l)) (r_box (m_req m)) c }.

(* New map [k] uses the memory of old map [j]: all of its indexes keep their addresses, which
   are in the old area *)
Definition SamePlace (sp : space) (es : Z) (tl fl : mlist) (k j : Z) : Prop :=
  exists mt mf lt lf Bt Bf Nt Nf, Backed sp es tl k mt lt Bt Nt /\ Backed sp es fl j mf lf Bf Nf /\
    m_start mt = m_start mf /\ m_cap mt = m_cap mf /\ SubBox (sp_dims sp) (r_box (m_req mt)) Bf /\
    forall i, InBox (sp_dims sp) i (r_box (m_req mt)) -> exists a, AddrOf lt i a /\ AddrOf lf i a /\
      m_start mf <= a /\ a + es <= m_start mf + m_cap mf.

(* blocks (address, size) do not overlap *)
Definition AwayB (a b : Z * Z) : Prop := Away (fst a) (snd a) (fst b) (snd b).
(* What is known of an allocator: the blocks requested for the maps of a list (of the size of
   the required range) do not overlap with each other and the blocks in use *)
Definition FreshFor (es : Z) (addr : Z -> Z) (ml : mlist) (used : list (Z * Z)) : Prop :=
  forall k m, aread (ml_maps ml) k = Ok m -> 0 < addr k /\
    (forall b, In b used -> AwayB (addr k, m_count m * es) b) /\
    (forall j m', j <> k -> aread (ml_maps ml) j = Ok m' -> AwayB (addr k, m_count m * es) (addr j, m_count m' * es)).

(* the memory blocks of the maps of a list *)
Definition blocks (ml : mlist) : list (Z * Z) := map (fun m => (m_start m, m_cap m)) (ml_maps ml).
Definition blocks_of (o : option mlist) : list (Z * Z) := match o with Some ml => blocks ml | None => [] end.

(* mappings without memory (after setting an initial partitioning) *)
Definition NoMemory (ml : mlist) : Prop :=
  ml_res ml = None /\ forall m, In m (ml_maps ml) -> m_start m = 0 /\ m_base m = 0 /\ m_reused m = -1.

(* A container during any history of switches (without memory provided by the user): the active
   mappings, the blocks allocated for it and not yet freed *)
Record dstate := mkDs { ds_act : option mlist; ds_live : list (Z * Z) }.
Definition freed (fr : list Z) (b : Z * Z) : bool := existsb (Z.eqb (fst b)) fr.
Inductive Reached (d : dcont) : dstate -> Prop :=
| Reached_new : Reached d (mkDs None [])
| Reached_initial l me tl :      (* laik_set_initial_partitioning *)
    OwnRanges (dc_space d) l me -> set_initial d None l me = Ok tl -> Reached d (mkDs (Some tl) [])
| Reached_switch s l me gen ini exec addr o tl t m m' fr :
    Reached d s -> OwnRanges (dc_space d) l me ->
    prepare_maps d l me = Ok tl -> FreshFor (dc_es d) addr tl (ds_live s) ->
    do_transition gen d ini exec addr o (ds_act s) tl m = Ok (t, m', fr) ->
    Reached d (mkDs (Some t)
      (filter (fun b => negb (freed fr b)) (ds_live s) ++ alloc_calls (dc_es d) addr tl (ds_act s))).
