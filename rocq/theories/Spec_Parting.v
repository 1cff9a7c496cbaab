(* What a program may expect of the queries on a partitioning (C63) *)
From Coq Require Import ZArith List Bool Lia Permutation Sorted.
From Verif Require Import Base Model_Space Spec_Space Model_RangeList Spec_RangeList Model_Partitioner Spec_Partitioner
  Model_Group Model_Parting.
Import ListNotations.
Open Scope Z_scope.

(* a range of a partitioning: process, borders, tag *)
Definition prange : Type := Z * box * Z.
Definition p_task (a : prange) : Z := fst (fst a).
Definition p_box (a : prange) : box := snd (fst a).
Definition p_tag (a : prange) : Z := snd a.

(* the ranges a partitioner asks for *)
Definition asked (cs : list acall) : list prange :=
  flat_map (fun c => match c with ACrange t r g => [(t, r_box r, g)] | ACidx _ _ => [] end) cs.

(* the order of the ranges: by process, then by tag, then by first coordinate *)
Definition Before (a b : prange) : Prop :=
  p_task a < p_task b \/
  p_task a = p_task b /\ (p_tag a < p_tag b \/
    p_tag a = p_tag b /\ i0 (b_from (p_box a)) <= i0 (b_from (p_box b))).

(* two ranges of a process with the same tag and the same first coordinate are the same *)
Definition NoTies (l : list prange) : Prop :=
  forall a b, In a l -> In b l -> p_task a = p_task b -> p_tag a = p_tag b ->
    i0 (b_from (p_box a)) = i0 (b_from (p_box b)) -> a = b.

(* [T] has all ranges asked for, in order *)
Definition Ordered (cs : list acall) (T : list prange) : Prop :=
  Permutation (asked cs) T /\ StronglySorted Before T.

(* the ranges of process [me]; a process outside of the group (-1) has none *)
Definition own_of (me : Z) (T : list prange) : list prange :=
  if me <? 0 then [] else filter (fun a => p_task a =? me) T.

(* map number of the n-th own range: neighbours with the same non-zero tag share a map *)
Fixpoint map_no (tags : list Z) (n : nat) : Z :=
  match n with
  | O => 0
  | S k => map_no tags k +
      (if (nth k tags 0 =? nth (S k) tags 0) && negb (nth (S k) tags 0 =? 0) then 0 else 1)
  end.
Definition numbered (own : list prange) : list (prange * Z) :=
  combine own (map (map_no (map p_tag own)) (seq 0 (length own))).
Definition map_total (own : list prange) : Z :=
  match length own with O => 0 | S k => map_no (map p_tag own) k + 1 end.

(* element [n] of a list, None outside *)
Definition at_ {A} (l : list A) (n : Z) : option A := if n <? 0 then None else nth_error l (Z.to_nat n).

(* what can be read from a range handed out *)
Definition seen (x : trg) : prange := (t_task x, t_box x, t_tag x).
Definition seen_no (x : trg) : prange * Z := (seen x, t_mapNo x).

(* borders of a range in the first [d] dimensions, 0 if there is none *)
Definition borders (d : nat) (x : option prange) : list Z :=
  let c f := match x with None => [0; 0] | Some a => [f (b_from (p_box a)); f (b_to (p_box a))] end in
  match d with
  | 1%nat => c i0
  | 2%nat => c i0 ++ c i1
  | _ => c i0 ++ c i1 ++ c i2
  end.

(* [a] is the right answer to call [c], given the ranges [T], of which [own] are own ranges;
   [owner t i] says that process [t] was given index [i] *)
Definition RightAnswer (s : space) (size : Z) (owner : Z -> index -> Prop) (T own : list prange) (c : pcall) (a : pans) : Prop :=
  match c, a with
  | PStoreAll _, ANothing | PStoreMy _, ANothing | PStoreInter _ _ _, ANothing => True
  | PMyRangeCount, AInt z => z = Z.of_nat (length own)
  | PMyRange n, ARange x => option_map seen_no x = at_ (numbered own) n
  | PMyMapCount, AInt z => z = map_total own
  | PMyMapRangeCount m, AInt z => z = Z.of_nat (length (filter (fun y => snd y =? m) (numbered own)))
  | PMyMapRange m n, ARange x => option_map seen_no x = at_ (filter (fun y => snd y =? m) (numbered own)) n
  | PMyRangeNd d n, ABorders x l => option_map seen_no x = at_ (numbered own) n /\ l = borders d (at_ own n)
  | PRangeCount, AInt z => z = Z.of_nat (length T)
  | PTaskRange n, ARange x => option_map seen x = at_ T n
  | PIsAll, ABool b => b = true -> forall t i, 0 <= t < size -> InBox (sp_dims s) i (sp_box s) -> owner t i
  | PIsSingle, AInt t => t <> -1 -> 0 <= t < size /\
      (forall i, InBox (sp_dims s) i (sp_box s) -> owner t i) /\ (forall u i, owner u i -> u = t)
  | PCoversSpace _, ABool b => b = true -> forall i, InBox (sp_dims s) i (sp_box s) -> exists t, 0 <= t < size /\ owner t i
  | _, _ => False
  end.

(* the sorting functions used in a call are correct *)
Definition GoodCall (c : pcall) : Prop :=
  match c with
  | PStoreAll q | PStoreMy q | PStoreInter q _ _ | PCoversSpace q => good_sorts q
  | _ => True
  end.

(* calls after which own ranges (all ranges) are known *)
Definition StoresAll (h : list pcall) : Prop := exists q, In (PStoreAll q) h.
Definition StoresOwn (h : list pcall) : Prop := StoresAll h \/ exists q, In (PStoreMy q) h.

(* queries about the own ranges, in a space with [dims] dimensions, with [maps] maps *)
Definition OwnQuery (dims : nat) (maps : Z) (c : pcall) : Prop :=
  match c with
  | PMyRangeCount | PMyRange _ | PMyMapCount | PMyMapRange _ _ => True
  | PMyMapRangeCount m => 0 <= m < maps
  | PMyRangeNd d _ => d = dims
  | _ => False
  end.

(* queries about the ranges of all processes *)
Definition AllQuery (c : pcall) : Prop :=
  match c with PRangeCount | PIsAll | PIsSingle => True | PTaskRange n => 0 <= n | _ => False end.

(* two answers a program cannot tell apart *)
Definition SameAnswer (a b : pans) : Prop :=
  match a, b with
  | ANothing, ANothing => True
  | AInt x, AInt y => x = y
  | ABool x, ABool y => x = y
  | ARange x, ARange y => option_map seen_no x = option_map seen_no y
  | ABorders x l, ABorders y k => option_map seen_no x = option_map seen_no y /\ l = k
  | _, _ => False
  end.
