(* Vocabulary for C62: a 1d container over its life. *)
From Coq Require Import ZArith List Bool Lia.
From Verif Require Import Base Model_Space Model_RangeList Model_Mem Model_Layout Model_Partitioner Model_Group Model_Transition Model_Data
  Model_Action Model_ActionTrans Model_ActionExec Model_ActionExec2 Model_Net Model_Switch Model_Container.
From Verif Require Import Spec_Space Spec_RangeList Spec_Partitioner Spec_Data Spec_Transition Spec_Reduce Spec_Net Spec_Switch.
Import ListNotations.
Open Scope Z_scope.

Definition OwnsZ (l : rlist) (p gi : Z) : Prop := Owns l p (mkIdx gi 0 0).
Definition OnlyOwnerZ (l : rlist) (p gi : Z) : Prop := OnlyOwner l p (mkIdx gi 0 0).

(* Where a program finds index [gi]: in an own range [x] with this index. The base address of its
   map is given by laik_get_map_1d, the first index of the map by laik_maplocal2global_1d *)
Definition ElemAt (d : dcont) (l : rlist) (me : Z) (ml : mlist) (gi a : Z) : Prop :=
  exists n x base count lo, rl_tidrange l me n = Ok (Some x) /\ InBox 1 (mkIdx gi 0 0) (t_box x) /\
    get_map_1d (Some ml) (t_mapNo x) = Ok (base, count) /\ maplocal2global_1d d (Some ml) (t_mapNo x) 0 = Ok lo /\
    lo <= gi < lo + count /\ a = base + (gi - lo) * dc_es d.
(* process [p] finds the value [v] for index [gi] *)
Definition Reads (d : dcont) (s : cstate) (p gi : Z) (v : list Z) : Prop :=
  exists a, ElemAt d (c_l s) p (c_maps s p) gi a /\ v = rdb (c_mem s p) a (dc_es d).

(* memory for all indexes of each process *)
Record Sound (d : dcont) (N : Z) (s : cstate) : Prop := {
  so_fz : FrozenList (c_l s); so_sp : rl_space (c_l s) = dc_space d; so_dims : sp_dims (dc_space d) = 1%nat;
  so_tids : rl_tids (c_l s) = N; so_disj : OwnDisjoint (c_l s);
  so_maps : forall p, 0 <= p < N -> GoodList (dc_space d) (dc_es d) (c_maps s p) /\ Covers (c_l s) p (c_maps s p) }.

(* the index intervals of the maps of a process, as told by the API, have no index in common *)
Definition MapsApart (d : dcont) (ml : mlist) : Prop :=
  forall k k' base count lo base' count' lo' gi,
    get_map_1d (Some ml) k = Ok (base, count) -> maplocal2global_1d d (Some ml) k 0 = Ok lo -> lo <= gi < lo + count ->
    get_map_1d (Some ml) k' = Ok (base', count') -> maplocal2global_1d d (Some ml) k' 0 = Ok lo' -> lo' <= gi < lo' + count' -> k = k'.

(* the initialisation function of the type writes the neutral elements given by [T] *)
Definition InitBy (T : dtype) (ini : mem -> Z -> Z -> redop -> outcome mem) (red : redop) : Prop :=
  forall m a c, 0 < c -> exists m', ini m a c red = Ok m' /\ forall b, m' b = mwrite m a (dt_init T red c) b.

(* A switch from ranges [fl] to [tl] the theorems are about: the limits of C26 for values to be
   preserved; for an initialisation, indexes which fit into an int (see C62_init_refuted) *)
Record Request (d : dcont) (N : Z) (T : dtype) (ini : mem -> Z -> Z -> redop -> outcome mem) (fl tl : rlist) (flow : dataflow) (red : redop) : Prop := {
  rq_good : Good1d (dc_space d) N fl tl;
  rq_pres : flow = DF_Preserve -> (red <> RO_None -> Elementwise T (dc_es d) red) /\ Reducible (dc_es d) fl tl;
  rq_init : flow = DF_Init -> Elementwise T (dc_es d) red /\ InitBy T ini red /\
    forall x, In x (rl_trs tl) -> - 2 ^ 31 <= i0 (b_from (t_box x)) /\ i0 (b_to (t_box x)) < 2 ^ 31 }.

(* process [me], with mappings [old], takes part in the switch *)
Record Joins (d : dcont) (qb : list border -> list border) (N : Z) (fl tl : rlist) (flow : dataflow) (red : redop) (me : Z) (old : mlist) (j : join) : Prop := {
  jn_own : OwnRanges (dc_space d) tl me;
  jn_next : prepare_maps d tl me = Ok (j_next j);
  jn_fresh : FreshFor (dc_es d) (j_addr j) (j_next j) (blocks old);
  jn_sees : Sees (dc_space d) N me fl tl (j_from j) (j_to j);
  jn_my : exists l, pa_my (np_p (j_to j)) = Some l /\ FrozenList l /\ 0 <= me < rl_tids l /\ forall n, rl_tidrange l me n = rl_tidrange tl me n;
  jn_calc : exists tr, calc_transition qb (dc_space d) (Some (j_from j)) (Some (j_to j)) flow red = Ok (Some tr) /\ tr_ops tr = j_ops j }.

(* operations on a container *)
Inductive cop := CWrite (p gi : Z) (v : list Z) | CSwitch (tl : rlist) (flow : dataflow) (red : redop).

(* One operation. In a switch, the processes are scheduled in any way; the next operation starts
   when all are done (a process which is faster only touches its own part). *)
Inductive CStep (d : dcont) (qb : list border -> list border) (N : Z) (T : dtype) (gen : bool) (ini : mem -> Z -> Z -> redop -> outcome mem) : cstate -> cop -> cstate -> Prop :=
| CStep_write s p gi v a : 0 <= p < N -> ElemAt d (c_l s) p (c_maps s p) gi a -> Z.of_nat (length v) = dc_es d ->
    CStep d qb N T gen ini s (CWrite p gi v) (store_at s p a v)
| CStep_switch s tl flow red js t cx acts sched y t' m' fr :
    Request d N T ini (c_l s) tl flow red ->
    (forall p, 0 <= p < N -> Joins d qb N (c_l s) tl flow red p (c_maps s p) (js p)) ->
    (forall p, 0 <= p < N -> switch_begin d N p (c_maps s p) (js p) = Ok (t p, cx p, acts p)) ->
    (forall p, 0 <= p < N -> BuffersFor (acts p) (j_place (js p)) (blocks (c_maps s p) ++ blocks (t p))) ->
    Sched N sched -> nrun sched (switch_net T js cx acts (c_mem s)) = Some y -> AllDone N y ->
    (forall p, 0 <= p < N -> switch_finish gen d ini (c_maps s p) (js p) (c_mem s p) (p_mem (pr_st (y p))) = Ok (t' p, m' p, fr p)) ->
    CStep d qb N T gen ini s (CSwitch tl flow red) (mkC tl t' m').
Inductive CRun (d : dcont) (qb : list border -> list border) (N : Z) (T : dtype) (gen : bool) (ini : mem -> Z -> Z -> redop -> outcome mem) : cstate -> list cop -> cstate -> Prop :=
| CRun_nil s : CRun d qb N T gen ini s [] s
| CRun_cons s o s1 r s2 : CStep d qb N T gen ini s o s1 -> CRun d qb N T gen ini s1 r s2 -> CRun d qb N T gen ini s (o :: r) s2.

(* ---------- what a program expects ---------- *)

(* Private copies: the value [A p gi] of index [gi] on process [p], for ranges [l]. A write
   changes the copy of one process. A switch gives each new owner the reduction of the copies of
   all old owners (in some order), the neutral element, or anything. *)
Definition copies := Z -> Z -> list Z.
Definition CopyStep (T : dtype) (l : rlist) (A : copies) (o : cop) (l' : rlist) (A' : copies) : Prop :=
  match o with
  | CWrite p gi v => l' = l /\ A' p gi = v /\ forall q gj, (q <> p \/ gj <> gi) -> A' q gj = A q gj
  | CSwitch tl flow red => l' = tl /\ forall p gi, OwnsZ tl p gi ->
    match flow with
    | DF_Preserve => exists ts, NoDup ts /\ (forall t, In t ts <-> OwnsZ l t gi) /\ A' p gi = reduce_all T red 1 (map (fun t => A t gi) ts)
    | DF_Init => A' p gi = dt_init T red 1
    | DF_None => True
    end
  end.
Inductive CopyRun (T : dtype) : rlist -> copies -> list cop -> rlist -> copies -> Prop :=
| CopyRun_nil l A : CopyRun T l A [] l A
| CopyRun_cons l A o l1 A1 r l2 A2 : CopyStep T l A o l1 A1 -> CopyRun T l1 A1 r l2 A2 -> CopyRun T l A (o :: r) l2 A2.

(* One array: [G gi] is the value of index [gi], if defined. Only the single owner of an index
   writes it. A switch keeps the value of an index with a single owner before, or with several
   owners if the operation gives [v] for two copies of [v] (minimum, maximum). *)
Definition array := Z -> option (list Z).
Definition ArrayStep (T : dtype) (l : rlist) (G : array) (o : cop) (l' : rlist) (G' : array) : Prop :=
  match o with
  | CWrite p gi v => l' = l /\ OnlyOwnerZ l p gi /\ G' gi = Some v /\ forall gj, gj <> gi -> G' gj = G gj
  | CSwitch tl flow red => l' = tl /\ forall gi v, G' gi = Some v ->
    match flow with
    | DF_Preserve => G gi = Some v /\ ((exists s, OnlyOwnerZ l s gi) \/ (exists s, OwnsZ l s gi) /\ dt_red T red 1 v v = v)
    | DF_Init => v = dt_init T red 1
    | DF_None => False
    end
  end.
Inductive ArrayRun (T : dtype) : rlist -> array -> list cop -> rlist -> array -> Prop :=
| ArrayRun_nil l G : ArrayRun T l G [] l G
| ArrayRun_cons l G o l1 G1 r l2 G2 : ArrayStep T l G o l1 G1 -> ArrayRun T l1 G1 r l2 G2 -> ArrayRun T l G (o :: r) l2 G2.
