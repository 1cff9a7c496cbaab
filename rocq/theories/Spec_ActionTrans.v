(* Vocabulary for the transformations of action sequences. *)
From Coq Require Import ZArith List Bool Lia.
From Verif Require Import Base Model_Mem Model_Transition Model_Action Model_ActionTrans Model_ActionExec Spec_Action.
Import ListNotations.
Open Scope Z_scope.

Definition area := Z -> Prop.
Definition region (p n : Z) : area := fun x => p <= x < p + n.
Definition apart (a b : area) : Prop := forall x, a x -> ~ b x.

(* an instruction reads only the area rd and writes only the area wr of the memory, and what
   it writes is the same whenever it reads the same; sending and writing does not depend on
   anything else; the area wr is a decidable set *)
Definition Frame (i : instr) (rd wr : area) : Prop :=
  0 <= i_take i /\ (i_in i = None -> i_take i = 0) /\ (forall x, wr x \/ ~ wr x) /\
  (forall m bs x, Z.of_nat (length bs) = i_take i -> ~ wr x -> i_write i m bs x = m x) /\
  (forall m m' bs, Z.of_nat (length bs) = i_take i -> (forall x, rd x -> m x = m' x) ->
     i_send i m = i_send i m' /\ forall x, wr x -> i_write i m bs x = i_write i m' bs x).

(* two actions do not touch what the other one writes *)
Definition Indep (rd1 wr1 rd2 wr2 : area) : Prop :=
  apart wr1 rd2 /\ apart wr1 wr2 /\ apart wr2 rd1.

(* same streams, and same memory outside of an area *)
Definition AgreeOut (T : area) (s s' : pst) : Prop :=
  (forall x, ~ T x -> p_mem s x = p_mem s' x) /\
  (forall c, p_in s c = p_in s' c) /\ (forall c, p_out s c = p_out s' c).

(* both runs get stuck, or both end, with the same result outside of an area *)
Definition SameRun (T : area) (o o' : option pst) : Prop :=
  match o, o' with Some s, Some s' => AgreeOut T s s' | None, None => True | _, _ => False end.

(* ---- combining ---- *)

(* the messages which can be combined: sends and receives of buffers, and reductions. What
   they read and write: *)
Definition msg_rd (cx : actx) (p : apar) : area :=
  match p with
  | BufSend buf n _ => region buf (n * cx_es cx)
  | GroupReduce i _ from _ n _ => fun x => ing cx i = true /\ region from (n * cx_es cx) x
  | Reduce from _ n _ _ => region from (n * cx_es cx)
  | _ => fun _ => False
  end.
Definition msg_wr (cx : actx) (p : apar) : area :=
  match p with
  | BufRecv buf n _ => region buf (n * cx_es cx)
  | GroupReduce _ o _ to n _ => fun x => ing cx o = true /\ region to (n * cx_es cx) x
  | Reduce _ to n root _ => fun x => (root = cx_me cx \/ root = -1) /\ region to (n * cx_es cx) x
  | _ => fun _ => False
  end.
Definition is_msg (a : action) : Prop :=
  match a_par a with BufSend _ _ _ | BufRecv _ _ _ | GroupReduce _ _ _ _ _ _ | Reduce _ _ _ _ _ => True | _ => False end.
Definition no_shared (o o' : option chan) : Prop := forall c, o = Some c -> o' <> Some c.

(* What is assumed about a sequence l. d a is what an action a does, and it reads rd a and
   writes wr a. T is the memory of the new reservation. Two actions of the same round may
   depend on each other only if none of them is a message; other actions do not communicate
   with the partner of a message of the same round. *)
Record Combinable (cx : actx) (d : action -> instr) (rd wr : action -> area) (T : area) (l : list action) : Prop := {
  cb_frame : forall a, In a l -> Frame (d a) (rd a) (wr a);
  cb_msg : forall a, In a l -> is_msg a -> forall x, (rd a x <-> msg_rd cx (a_par a) x) /\ (wr a x <-> msg_wr cx (a_par a) x);
  cb_indep : ForallOrdPairs (fun a b => a_round a = a_round b -> is_msg a \/ is_msg b ->
      Indep (rd a) (wr a) (rd b) (wr b) /\
      (~ (is_msg a /\ is_msg b) -> no_shared (i_in (d a)) (i_in (d b)) /\ no_shared (i_out (d a)) (i_out (d b)))) l;
  cb_temp : forall a, In a l -> apart (rd a) T /\ apart (wr a) T }.

(* sum of the numbers of elements of messages *)
Definition total (l : list action) : Z := fold_right Z.add 0 (map a_cnt l).

(* rounds which leave room for copying before and after, and numbers of elements >= 0 *)
Definition ranged (l : list action) : Prop := forall a, In a l -> 0 <= a_round a < 85 /\ 0 <= a_cnt a.

(* a message as laik generates it: not empty, and the process takes part in it *)
Definition ValidMsg (cx : actx) (a : action) : Prop :=
  match a_par a with
  | BufSend _ n _ | BufRecv _ n _ | Reduce _ _ n _ _ => 0 < n
  | GroupReduce i o _ _ n _ => 0 < n /\ (exists a, in_group cx i = Ok a) /\ (exists b, in_group cx o = Ok b) /\ (in_group cx i = Ok true \/ in_group cx o = Ok true)
  | _ => True
  end.

(* the part of a reservation which is used by a message *)
Definition tmp_area (cx : actx) (id : Z) (a : action) : option (Z * Z) :=
  match a_par a with
  | RBufSend k off n _ | RBufRecv k off n _ | RBufGroupReduce _ _ k off n _ | RBufReduce k off n _ _ =>
      if k =? id then Some (off, n * cx_es cx) else None
  | _ => None
  end.

(* all temporary areas of one reservation, in order *)
Definition tmp_areas (cx : actx) (id : Z) (l : list action) : list (Z * Z) :=
  flat_map (fun a => match tmp_area cx id a with Some x => [x] | None => [] end) l.

(* elements in messages *)
Definition elements (l : list action) : Z := fold_right Z.add 0 (map msg_count l).
