(* Common vocabulary of the model: outcomes of C functions and list helpers.
   This file models no code of its own. *)
From Coq Require Import ZArith List Bool Lia Permutation Sorted.
Import ListNotations.
Open Scope Z_scope.

(* Result of a modelled C function.
   - [Ok a]: returns normally with value a
   - [Abort]: a failing assert() (asserts are active in the default build)
   - [Panic]: laik_panic / laik_log(LAIK_LL_Panic, ...): prints and exits
   - [UB]: undefined behaviour in C (NULL call, out-of-bounds access, ...)
   - [NoFuel]: the model's fuel did not suffice; never counts as success *)
Inductive outcome (A : Type) : Type :=
| Ok (a : A)
| Abort
| Panic
| UB
| NoFuel.
Arguments Ok {A} a.
Arguments Abort {A}.
Arguments Panic {A}.
Arguments UB {A}.
Arguments NoFuel {A}.

Definition obind {A B} (x : outcome A) (f : A -> outcome B) : outcome B :=
  match x with
  | Ok a => f a
  | Abort => Abort
  | Panic => Panic
  | UB => UB
  | NoFuel => NoFuel
  end.
Notation "'do' x <- e1 ; e2" := (obind e1 (fun x => e2))
  (at level 200, x name, e1 at level 100, e2 at level 200).

(* C's assert(b); continue with k *)
Definition cassert {A} (b : bool) (k : outcome A) : outcome A :=
  if b then k else Abort.

Definition omap {A B} (f : A -> B) (x : outcome A) : outcome B :=
  obind x (fun a => Ok (f a)).

Definition is_ok {A} (x : outcome A) : bool :=
  match x with Ok _ => true | _ => false end.

Lemma obind_ok {A B} (x : outcome A) (f : A -> outcome B) b :
  obind x f = Ok b -> exists a, x = Ok a /\ f a = Ok b.
Proof. destruct x; simpl; intros H; try discriminate. eauto. Qed.

Lemma cassert_ok {A} c (k : outcome A) a :
  cassert c k = Ok a -> c = true /\ k = Ok a.
Proof. destruct c; simpl; intros; try discriminate. auto. Qed.

(* ordinary left-to-right loop over a list, with a state that may fail *)
Fixpoint ofold {S X} (f : S -> X -> outcome S) (l : list X) (s : S) : outcome S :=
  match l with
  | [] => Ok s
  | x :: l' => obind (f s x) (fun s' => ofold f l' s')
  end.

Lemma ofold_app {S X} (f : S -> X -> outcome S) l1 l2 s :
  ofold f (l1 ++ l2) s = obind (ofold f l1 s) (fun s' => ofold f l2 s').
Proof.
  revert s; induction l1; simpl; intros; auto.
  destruct (f s a); simpl; auto.
Qed.

(* loop rule: an invariant indexed by the processed prefix *)
Lemma ofold_ind {S X} (f : S -> X -> outcome S) (P : list X -> S -> Prop) l s0 s1 :
  P [] s0 ->
  (forall pre x post s s', l = pre ++ x :: post -> P pre s -> f s x = Ok s' ->
      P (pre ++ [x]) s') ->
  ofold f l s0 = Ok s1 -> P l s1.
Proof.
  intros H0 Hs H.
  assert (G : forall post pre s, l = pre ++ post -> P pre s ->
              ofold f post s = Ok s1 -> P l s1).
  { induction post; simpl; intros pre s El Hp Hf.
    - rewrite app_nil_r in El. subst. congruence.
    - apply obind_ok in Hf. destruct Hf as [s' [Hf1 Hf2]].
      eapply (IHpost (pre ++ [a])).
      + rewrite <- app_assoc. simpl. auto.
      + eapply Hs; eauto.
      + auto. }
  exact (G l [] s0 eq_refl H0 H).
Qed.

(* list update at a position; out-of-range positions leave the list unchanged *)
Fixpoint upd {A} (n : nat) (x : A) (l : list A) : list A :=
  match l, n with
  | [], _ => []
  | _ :: t, O => x :: t
  | h :: t, S n' => h :: upd n' x t
  end.

Lemma upd_length {A} n (x : A) l : length (upd n x l) = length l.
Proof. revert n; induction l; destruct n; simpl; auto. Qed.

Lemma upd_nth_same {A} n (x : A) l : (n < length l)%nat -> nth_error (upd n x l) n = Some x.
Proof. revert n; induction l; destruct n; simpl; intros; try lia; auto. apply IHl; lia. Qed.

Lemma upd_nth_other {A} n m (x : A) l : n <> m -> nth_error (upd n x l) m = nth_error l m.
Proof. revert n m; induction l; destruct n, m; simpl; intros; try congruence; auto. Qed.

(* "any result of C's qsort with comparison function cmp": a permutation in
   which no element compares greater than a later one *)
Definition qsorted {A} (le : A -> A -> Prop) (l l' : list A) : Prop :=
  Permutation l l' /\ StronglySorted le l'.

#[global] Arguments Z.of_nat : simpl never.
#[global] Arguments Z.to_nat : simpl never.
#[global] Arguments Z.add : simpl never.
#[global] Arguments Z.sub : simpl never.
#[global] Arguments Z.mul : simpl never.
#[global] Arguments Z.div : simpl never.
#[global] Arguments Z.modulo : simpl never.
#[global] Arguments Z.pow : simpl never.
#[global] Arguments Z.leb : simpl never.
#[global] Arguments Z.ltb : simpl never.
#[global] Arguments Z.geb : simpl never.
#[global] Arguments Z.gtb : simpl never.
#[global] Arguments Z.eqb : simpl never.
#[global] Arguments Z.max : simpl never.
#[global] Arguments Z.min : simpl never.

(* prove a conjunction of closed equations by computation, from left to right *)
Ltac vmsplit := repeat (split; [vm_compute; reflexivity|]); vm_compute; reflexivity.
