(* Vocabulary for C32: reductions by messages. *)
From Coq Require Import ZArith List Bool Lia.
From Verif Require Import Base Model_Space Model_Mem Model_Type Model_Transition Model_Action Model_ActionTrans Model_ActionExec Model_ActionExec2 Spec_Type Spec_ActionTrans.
Import ListNotations.
Open Scope Z_scope.

(* reduction of a list of values (each the bytes of c elements), from left to right; the neutral
   element for the empty list *)
Definition reduce_all (T : dtype) (r : redop) (c : Z) (l : list (list Z)) : list Z :=
  match l with [] => dt_init T r c | v :: vs => fold_left (dt_red T r c) vs v end.

(* the functions of the data type give values of the right size *)
Definition Sized (T : dtype) (es : Z) (r : redop) (c : Z) : Prop :=
  Z.of_nat (length (dt_init T r c)) = c * es /\
  forall a b, Z.of_nat (length a) = c * es -> Z.of_nat (length b) = c * es -> Z.of_nat (length (dt_red T r c a b)) = c * es.

(* the operation is associative and commutative on values of the right size *)
Definition AssocComm (T : dtype) (es : Z) (r : redop) (c : Z) : Prop :=
  forall x y z, Z.of_nat (length x) = c * es -> Z.of_nat (length y) = c * es -> Z.of_nat (length z) = c * es ->
    dt_red T r c (dt_red T r c x y) z = dt_red T r c x (dt_red T r c y z) /\ dt_red T r c x y = dt_red T r c y x.

(* the members of a group, but process p first if it is one of them *)
Definition first_me (p : Z) (g : list Z) : list Z :=
  if existsb (fun x => x =? p) g then p :: filter (fun x => negb (x =? p)) g else g.

(* The processes 0 .. N-1 agree about the groups of a reduction, and the size of the elements. *)
Definition Agreed (N : Z) (cx : Z -> actx) (i o es : Z) (ins outs : list Z) : Prop :=
  NoDup ins /\ NoDup outs /\ (forall q, In q ins -> 0 <= q < N) /\ (forall q, In q outs -> 0 <= q < N) /\
  forall p, 0 <= p < N -> cx_me (cx p) = p /\ cx_es (cx p) = es /\ cx_group (cx p) i = Ok ins /\ cx_group (cx p) o = Ok outs.

(* temporary memory at base for the inputs, of n bytes, of the other processes *)
Definition temp (n : Z) (base : Z -> Z) (ins : list Z) (p : Z) : area :=
  region (base p) (n * Z.of_nat (length (filter (fun q => negb (q =? p)) ins))).
(* on a process with output: the buffer for input is the one for output, or apart from it, and
   the temporary memory is apart from both *)
Definition BuffersOk (n : Z) (from to base : Z -> Z) (ins outs : list Z) : Prop :=
  forall p, In p outs ->
    (from p = to p \/ apart (region (from p) n) (region (to p) n)) /\
    apart (temp n base ins p) (region (from p) n) /\ apart (temp n base ins p) (region (to p) n).

(* the memory of process p after the reduction: v p is the expected value of its output *)
Definition ReducedIn (N n : Z) (to base : Z -> Z) (ins outs : list Z) (m : Z -> mem) (v : Z -> list Z) (p : Z) (s : pst) : Prop :=
  (In p outs -> rdb (p_mem s) (to p) n = v p) /\
  (forall x, ~ (In p outs /\ region (to p) n x) -> ~ (In p outs /\ temp n base ins p x) -> p_mem s x = m p x) /\
  (forall q, 0 <= q < N -> p_in s (Peer q) = []).

(* IDs of the temporary buffers reserved in a sequence *)
Definition ids (l : list action) : list Z := flat_map (fun a => match a_par a with BufReserve _ id _ => [id] | _ => [] end) l.
(* integer types and operations without undefined results *)
Definition TotalOp (T : itype) (o : redop) : Prop := ~ Strict T \/ (o <> RO_Sum /\ o <> RO_Prod).
