(* Asynchronous messages give the same result as blocking ones. *)
From Coq Require Import ZArith List Bool Lia ZifyBool ZifyNat.
From Verif Require Import Base Model_Space Model_Mem Model_Transition Model_Action Model_ActionTrans Model_ActionExec Model_Async.
From Verif Require Import Spec_ActionTrans Spec_Async Proof_Type Proof_Layout5 Proof_Layout7 Proof_Comb3.
Import ListNotations.
Open Scope Z_scope.

Lemma setc_same {A} (f : chan -> A) c v : setc f c v c = v.
Proof. unfold setc. destruct (chan_eq_dec c c); congruence. Qed.
Lemma setc_other {A} (f : chan -> A) c v d : d <> c -> setc f c v d = f d.
Proof. unfold setc. destruct (chan_eq_dec d c); congruence. Qed.
Lemma setq_same f q v : setq f q v q = Some v.
Proof. unfold setq. rewrite Z.eqb_refl. auto. Qed.
Lemma setq_other f q v k : k <> q -> setq f q v k = f k.
Proof. unfold setq. intros. destruct (k =? q) eqn:E; [lia|auto]. Qed.
Lemma on_iff c o : on c o = true <-> o = Some c.
Proof. unfold on. destruct o; [|split; discriminate]. destruct (chan_eq_dec c c0); split; congruence. Qed.

Lemma NoDup_app_snoc {A} (l : list A) x : NoDup l -> ~ In x l -> NoDup (l ++ [x]).
Proof.
  intros H. induction H as [|y l Hy Hl IH]; intros Hx; simpl; [repeat constructor; auto|].
  constructor; [|apply IH; intros H; apply Hx; right; auto].
  intros H. apply in_app_or in H. destruct H as [H|[H|[]]]; auto. apply Hx. left. auto.
Qed.
Lemma FOP_snoc {A} (Q : A -> A -> Prop) l x : ForallOrdPairs Q l -> Forall (fun y => Q y x) l -> ForallOrdPairs Q (l ++ [x]).
Proof.
  intros H. induction H as [|y l Hy Hl IH]; intros Hx; simpl; [repeat constructor|]. inversion Hx; subst.
  constructor; [apply Forall_app; auto|auto].
Qed.

Section Run.
  Variable cx : actx.
  Variable o : apar -> instr.
  Variables rd wr : apar -> area.
  Let es := cx_es cx.
  Hypothesis es0 : 0 <= es.
  Let sy := sync_i cx o.
  Let R := ard cx rd.
  Let W := awr cx wr.

  (* a receive which was started but not yet waited for: request, address, bytes, partner *)
  Definition item := (Z * Z * Z * Z)%type.
  Definition it_q (i : item) := fst (fst (fst i)).
  Definition it_b (i : item) := snd (fst (fst i)).
  Definition it_n (i : item) := snd (fst i).
  Definition it_f (i : item) := snd i.
  Definition it_reg (i : item) : area := region (it_b i) (it_n i).
  Definition it_post (i : item) (c : Z) : apar := MpiIrecv (it_b i) c (it_f i) (it_q i).

  Fixpoint ritems (q : Z) (l : list apar) : list item :=
    match l with
    | [] => []
    | p :: l' => match p with BufRecv b c f => [(q, b, c * es, f)] | _ => [] end ++ ritems (nextq q p) l'
    end.

  Lemma nextq_ge q p : q <= nextq q p.
  Proof. clear sy R W; clear o rd wr. unfold nextq. destruct (is_m p); lia. Qed.

  Lemma ritems_ge l : forall q i, In i (ritems q l) -> q <= it_q i.
  Proof. clear sy R W; clear o rd wr.
    induction l as [|p l IH]; intros q i H; [destruct H|]. cbn [ritems] in H. apply in_app_or in H. destruct H as [H|H].
    - destruct p; simpl in H; try tauto. destruct H as [<-|[]]. unfold it_q. simpl. lia.
    - apply IH in H. pose proof (nextq_ge q p). lia.
  Qed.
  Lemma ritems_nodup l : forall q, NoDup (map it_q (ritems q l)).
  Proof. clear sy R W; clear o rd wr.
    induction l as [|p l IH]; intros q; [constructor|]. cbn [ritems]. rewrite map_app.
    destruct p; simpl; try apply IH. constructor; [|apply IH].
    intros H. apply in_map_iff in H. destruct H as [i [E H]]. apply ritems_ge in H. unfold nextq in *. simpl in *. unfold it_q in E at 2. simpl in E. lia.
  Qed.
  Lemma ritems_in l : forall q i, In i (ritems q l) -> exists c, it_n i = c * es /\ In (BufRecv (it_b i) c (it_f i)) l.
  Proof.
    induction l as [|p l IH]; intros q i H; [destruct H|]. cbn [ritems] in H. apply in_app_or in H. destruct H as [H|H].
    - destruct p; simpl in H; try tauto. destruct H as [<-|[]]. eexists. split; [reflexivity|]. left. reflexivity.
    - apply IH in H. destruct H as [c [E H]]. exists c. split; auto. right. auto.
  Qed.

  (* the bytes which belong to the items, in order *)
  Fixpoint Items (P : list item) (inn : chan -> list Z) (A : ast) : Prop :=
    match P with
    | [] => forall c, inn c = x_in A c
    | i :: P' =>
        let bs := firstn (bytes (it_n i)) (inn (Peer (it_f i))) in
        (x_rq A (it_q i) = Some (RRecv (it_b i) (it_n i) bs) \/
         (x_rq A (it_q i) = Some RDone /\ Z.of_nat (length bs) = it_n i /\ rdb (x_mem A) (it_b i) (it_n i) = bs)) /\
        Items P' (setc inn (Peer (it_f i)) (skipn (bytes (it_n i)) (inn (Peer (it_f i))))) A
    end.

  Lemma items_ext P A : forall inn inn', (forall c, inn c = inn' c) -> Items P inn A -> Items P inn' A.
  Proof.
    induction P as [|i P IH]; intros inn inn' E H; simpl in *.
    - intros c. rewrite <- E. auto.
    - destruct H as [H1 H2]. rewrite <- (E (Peer (it_f i))). split; auto.
      eapply IH; [|exact H2]. intros c. unfold setc. destruct (chan_eq_dec c (Peer (it_f i))); auto.
  Qed.

  (* the state changes elsewhere *)
  Lemma items_keep A A' : forall P inn,
    (forall c, x_in A c = x_in A' c) ->
    (forall i, In i P -> x_rq A (it_q i) = x_rq A' (it_q i)) ->
    (forall i x, In i P -> x_rq A (it_q i) = Some RDone -> it_reg i x -> x_mem A x = x_mem A' x) ->
    Items P inn A -> Items P inn A'.
  Proof.
    induction P as [|i P IH]; intros inn HI HQ HM H; simpl in *.
    - intros c. rewrite H. auto.
    - destruct H as [H1 H2]. split.
      + rewrite <- (HQ i) by auto. destruct H1 as [H1|(H1 & H3 & H4)]; [left; auto|right].
        split; auto. split; auto. rewrite <- H4. apply rdb_ext. intros x Hx. symmetry. apply (HM i); auto.
      + apply IH; auto. intros j x Hj. apply HM; auto.
  Qed.

  (* a channel without items *)
  Lemma items_chan A : forall P inn c, (forall i, In i P -> c <> Peer (it_f i)) -> Items P inn A -> x_in A c = inn c.
  Proof.
    induction P as [|i P IH]; intros inn c Hc H; simpl in *; [symmetry; auto|].
    destruct H as [_ H]. rewrite (IH _ _ ltac:(intros; apply Hc; right; auto) H). apply setc_other. apply Hc. auto.
  Qed.

  Lemma items_take A c0 v : forall P inn, (forall i, In i P -> c0 <> Peer (it_f i)) -> Items P inn A ->
    Items P (setc inn c0 v) (mkX (x_mem A) (setc (x_in A) c0 v) (x_out A) (x_rq A)).
  Proof.
    induction P as [|i P IH]; intros inn Hc H; simpl in *.
    - intros c. unfold setc. destruct (chan_eq_dec c c0); auto.
    - destruct H as [H1 H2]. rewrite !(setc_other inn c0) by (apply not_eq_sym; apply Hc; auto). split; auto.
      eapply items_ext; [|apply IH; [|exact H2]; intros; apply Hc; auto].
      intros c. unfold setc. assert (c0 <> Peer (it_f i)) by (apply Hc; auto).
      destruct (chan_eq_dec c (Peer (it_f i))), (chan_eq_dec c c0); auto. congruence.
  Qed.

  (* one more receive is started *)
  Lemma items_post A q b n f : forall P inn, ~ In q (map it_q P) -> Items P inn A ->
    Items (P ++ [(q, b, n, f)]) inn
      (mkX (x_mem A) (setc (x_in A) (Peer f) (skipn (bytes n) (x_in A (Peer f)))) (x_out A)
           (setq (x_rq A) q (RRecv b n (firstn (bytes n) (x_in A (Peer f)))))).
  Proof.
    induction P as [|i P IH]; intros inn Hq H; simpl in *.
    - unfold it_q, it_b, it_n, it_f; simpl. rewrite setq_same, <- !H. split; auto.
      intros c. unfold setc. destruct (chan_eq_dec c (Peer f)); auto.
    - destruct H as [H1 H2]. rewrite setq_other by tauto. split; auto.
  Qed.

  (* what a slot will contain *)
  Definition resolve (A : ast) (s : slot) : list Z :=
    match s with
    | Filled bs => bs
    | Waiting q => match x_rq A q with Some (RSend b n) => rdb (x_mem A) b n | _ => [] end
    end.

  Record Rel (rest : list apar) (P : list item) (S : pst) (A : ast) (sq : list Z) : Prop := {
    r_items : Items P (p_in S) A;
    r_nodup : NoDup (map it_q P);
    r_incl : forall i, In i P -> exists c, it_n i = c * es /\ In (BufRecv (it_b i) c (it_f i)) rest;
    r_apart : ForallOrdPairs (fun i j => apart (it_reg j) (it_reg i)) P;
    r_mem : forall x, (forall i, In i P -> x_rq A (it_q i) = Some RDone -> ~ it_reg i x) -> x_mem A x = p_mem S x;
    r_out : forall c, p_out S c = concat (map (resolve A) (x_out A c));
    r_slot : forall c q, In (Waiting q) (x_out A c) -> In q sq /\
               exists b n, x_rq A q = Some (RSend b n) /\ forall p, In p rest -> apart (W p) (region b n);
    r_recv : forall q b n bs, x_rq A q = Some (RRecv b n bs) -> exists i, In i P /\ it_q i = q;
    r_sq : forall q, In q sq -> x_rq A q = Some RDone \/ exists b n, x_rq A q = Some (RSend b n) }.

  Lemma item_state A : forall P inn i, Items P inn A -> In i P ->
    (exists bs, x_rq A (it_q i) = Some (RRecv (it_b i) (it_n i) bs)) \/ x_rq A (it_q i) = Some RDone.
  Proof.
    induction P as [|j P IH]; intros inn i H Hi; [destruct Hi|]. simpl in H. destruct H as [H1 H2].
    destruct Hi as [<-|Hi]; [|eauto]. destruct H1 as [H1|(H1 & _)]; eauto.
  Qed.

  Lemma fop_two {T} (Q : T -> T -> Prop) l : ForallOrdPairs Q l -> forall a b, In a l -> In b l -> a = b \/ Q a b \/ Q b a.
  Proof.
    induction 1 as [|x l Hx Hl IH]; intros a b Ha Hb; [destruct Ha|]. rewrite Forall_forall in Hx.
    destruct Ha as [<-|Ha], Hb as [<-|Hb]; auto.
  Qed.

  Lemma apart_sym (a b : area) : apart a b -> apart b a.
  Proof. intros H x Hb Ha. exact (H x Ha Hb). Qed.

  Lemma items_apart P : ForallOrdPairs (fun i j => apart (it_reg j) (it_reg i)) P -> NoDup (map it_q P) ->
    forall i j, In i P -> In j P -> it_q i <> it_q j -> apart (it_reg i) (it_reg j).
  Proof.
    intros H HN i j Hi Hj Hd. destruct (fop_two _ _ H i j Hi Hj) as [E|[E|E]]; [subst; congruence| |auto]. apply apart_sym. auto.
  Qed.

  (* ---- MPI completes a request ---- *)
  Lemma rel_send rest P S A sq q b n : Rel rest P S A sq -> x_rq A q = Some (RSend b n) ->
    Rel rest P S (mkX (x_mem A) (x_in A) (fun c => map (fill q (rdb (x_mem A) b n)) (x_out A c)) (setq (x_rq A) q RDone)) sq.
  Proof.
    intros HR Hq. destruct HR.
    assert (HP : forall i, In i P -> it_q i <> q).
    { intros i Hi E. destruct (item_state _ _ _ _ r_items0 Hi) as [[bs H]|H]; congruence. }
    constructor; auto; simpl.
    - eapply items_keep; [| | |exact r_items0]; simpl; auto. intros i Hi. rewrite setq_other; auto.
    - intros x Hx. apply r_mem0. intros i Hi E. apply Hx; auto. rewrite setq_other; auto.
    - intros c. rewrite r_out0. f_equal. rewrite map_map. apply map_ext_in. intros s Hs. unfold fill.
      destruct s as [bs|k]; auto. destruct (k =? q) eqn:E; simpl.
      + assert (k = q) by lia. subst. rewrite Hq. auto.
      + rewrite setq_other by lia. auto.
    - intros c k H. apply in_map_iff in H. destruct H as [s [E H]]. unfold fill in E. destruct s as [bs|k']; [discriminate|].
      destruct (k' =? q) eqn:E'; [discriminate|]. inversion E; subst. destruct (r_slot0 _ _ H) as (H1 & b' & n' & H2 & H3).
      split; auto. exists b', n'. rewrite setq_other by lia. auto.
    - intros k b' n' bs H. destruct (Z.eq_dec k q) as [->|Hd]; [rewrite setq_same in H; discriminate|].
      rewrite setq_other in H by auto. eauto.
    - intros k H. destruct (Z.eq_dec k q) as [->|Hd]; [left; apply setq_same|]. rewrite setq_other by auto. auto.
  Qed.

  Lemma items_complete A i0 bs : forall P inn, NoDup (map it_q P) -> In i0 P ->
    x_rq A (it_q i0) = Some (RRecv (it_b i0) (it_n i0) bs) -> Z.of_nat (length bs) = it_n i0 ->
    (forall i, In i P -> it_q i <> it_q i0 -> apart (it_reg i0) (it_reg i)) ->
    Items P inn A -> Items P inn (mkX (mwrite (x_mem A) (it_b i0) bs) (x_in A) (x_out A) (setq (x_rq A) (it_q i0) RDone)).
  Proof.
    intros P. induction P as [|i P IH]; intros inn HN Hi Hq Hl Hap H; [destruct Hi|].
    simpl in HN. inversion HN as [|? ? HN1 HN2]; subst. simpl in H. destruct H as [H1 H2].
    destruct (Z.eq_dec (it_q i) (it_q i0)) as [E|E].
    - assert (i = i0).
      { destruct Hi as [Hi|Hi]; [auto|]. exfalso. apply HN1. rewrite E. apply in_map. auto. }
      subst i. simpl. split.
      + right. rewrite setq_same. split; auto. destruct H1 as [H1|(H1 & _)]; [|congruence].
        rewrite Hq in H1. injection H1 as H1. rewrite <- H1. split; auto. unfold rdb. rewrite mread_mwrite_same; auto. unfold bytes. lia.
      + eapply items_keep; [| | |exact H2]; simpl; auto.
        * intros j Hj. rewrite setq_other; auto. intros Ej. apply HN1. rewrite <- Ej. apply in_map. auto.
        * intros j x Hj _ Hx. symmetry. apply mwrite_keep. rewrite Hl. intros HH. revert Hx. refine (Hap j _ _ x HH); [right; auto|]. intros Ej. apply HN1. rewrite <- Ej. apply in_map. auto.
    - destruct Hi as [Hi|Hi]; [congruence|]. simpl. split.
      + rewrite setq_other by auto. destruct H1 as [H1|(H1 & H3 & H4)]; [left; auto|right].
        split; auto. split; auto. rewrite <- H4. apply rdb_ext. intros x Hx. apply mwrite_keep. rewrite Hl.
        intros H. exact (Hap i ltac:(left; auto) E x H Hx).
      + apply IH; auto. intros j Hj. apply Hap. right. auto.
  Qed.

  Lemma rel_recv l rest P S A sq q b n bs :
    AsyncSafe cx o rd wr l -> (exists pre, l = pre ++ rest) ->
    Rel rest P S A sq -> x_rq A q = Some (RRecv b n bs) -> Z.of_nat (length bs) = n ->
    Rel rest P S (mkX (mwrite (x_mem A) b bs) (x_in A) (x_out A) (setq (x_rq A) q RDone)) sq.
  Proof.
    intros _ _ HR Hq Hl. destruct HR. destruct (r_recv0 _ _ _ _ Hq) as (i0 & Hi0 & <-).
    assert (E : it_b i0 = b /\ it_n i0 = n).
    { destruct (item_state _ _ _ _ r_items0 Hi0) as [[bs' H]|H]; rewrite Hq in H; [|discriminate]. inversion H; auto. }
    destruct E as [<- En].
    assert (Hreg : forall x, ~ it_reg i0 x -> mwrite (x_mem A) (it_b i0) bs x = x_mem A x).
    { intros x Hx. apply mwrite_keep. rewrite Hl, <- En. exact Hx. }
    assert (Hsl : forall b' n' p, (exists c, In (Waiting p) (x_out A c)) -> x_rq A p = Some (RSend b' n') -> rdb (mwrite (x_mem A) (it_b i0) bs) b' n' = rdb (x_mem A) b' n').
    { intros b' n' p [c Hp] Ep. apply rdb_ext. intros x Hx. apply Hreg. intros HH.
      destruct (r_slot0 _ _ Hp) as (_ & b2 & n2 & E2 & E3). rewrite Ep in E2. inversion E2; subst b2 n2.
      destruct (r_incl0 _ Hi0) as (k & Ek & Hk). refine (E3 _ Hk x _ Hx). unfold it_reg in HH. rewrite Ek in HH. exact HH. }
    constructor; auto; simpl.
    - subst n. apply items_complete; auto.
      + rewrite En. auto.
      + intros i Hi Hd. eapply items_apart; eauto.
    - intros x Hx. assert (HN : ~ it_reg i0 x) by (apply Hx; auto; apply setq_same).
      rewrite Hreg by auto. apply r_mem0. intros i Hi E. apply Hx; auto.
      destruct (Z.eq_dec (it_q i) (it_q i0)) as [Ee|Ee]; [rewrite Ee in E; congruence|]. rewrite setq_other; auto.
    - intros c. rewrite r_out0. f_equal. apply map_ext_in. intros s Hs. destruct s as [y|k]; auto. simpl.
      destruct (r_slot0 _ _ Hs) as (_ & b2 & n2 & E2 & E3). rewrite setq_other by congruence. rewrite E2.
      symmetry. apply (Hsl _ _ k); eauto.
    - intros c k Hk. destruct (r_slot0 _ _ Hk) as (H1 & b2 & n2 & E2 & E3). split; auto. exists b2, n2. split; auto.
      rewrite setq_other; auto. congruence.
    - intros k b2 n2 bs2 H. destruct (Z.eq_dec k (it_q i0)) as [->|Hd]; [rewrite setq_same in H; discriminate|].
      rewrite setq_other in H by auto. eauto.
    - intros k H. destruct (Z.eq_dec k (it_q i0)) as [->|Hd]; [left; apply setq_same|]. rewrite setq_other by auto. auto.
  Qed.

  (* ---- the process starts a receive ---- *)
  Lemma rel_post rest P S A sq q b c f : Rel rest P S A sq -> ~ In q (map it_q P) -> ~ In q sq ->
    In (BufRecv b c f) rest -> (forall i, In i P -> apart (region b (c * es)) (it_reg i)) ->
    (forall c', ~ In (Waiting q) (x_out A c')) ->
    exists A', do_op es (sync_i cx o) (MpiIrecv b c f q) A = Some A' /\ Rel rest (P ++ [(q, b, c * es, f)]) S A' sq.
  Proof.
    intros HR Hq Hs Hin Hap Hw. destruct HR. eexists. split; [reflexivity|]. constructor; simpl.
    - apply items_post; auto.
    - rewrite map_app. apply NoDup_app_snoc; auto.
    - intros i Hi. apply in_app_or in Hi. destruct Hi as [Hi|[<-|[]]]; auto. exists c. auto.
    - apply FOP_snoc; auto. apply Forall_forall. auto.
    - intros x Hx. apply r_mem0. intros i Hi E. apply Hx; [apply in_or_app; auto|]. rewrite setq_other; auto.
      intros Ei. apply Hq. rewrite <- Ei. apply in_map. auto.
    - intros d. rewrite r_out0. f_equal. apply map_ext_in. intros s Hs'. destruct s as [y|k]; auto. simpl.
      destruct (Z.eq_dec k q) as [->|Hd]; [destruct (Hw _ Hs')|]. rewrite setq_other by auto. auto.
    - intros d k Hk. destruct (r_slot0 _ _ Hk) as (H1 & b2 & n2 & E2 & E3). split; auto. exists b2, n2. split; auto.
      rewrite setq_other; auto. intros ->. destruct (Hw _ Hk).
    - intros k b2 n2 bs H. destruct (Z.eq_dec k q) as [->|Hd].
      + eexists. split; [apply in_or_app; right; left; reflexivity|]. reflexivity.
      + rewrite setq_other in H by auto. destruct (r_recv0 _ _ _ _ H) as (i & Hi & E). exists i. split; auto. apply in_or_app. auto.
    - intros k H. rewrite setq_other; auto. congruence.
  Qed.

  (* ---- the process executes the next action ---- *)
  Definition pairs (i j : apar) : Prop :=
     (forall b c t, i = BufSend b c t -> apart (awr cx wr j) (ard cx rd i)) /\
     (forall b c f, j = BufRecv b c f -> apart (awr cx wr j) (ard cx rd i) /\ apart (awr cx wr j) (awr cx wr i) /\
        ((exists b' c', i = BufRecv b' c' f) \/ i_in (sync_i cx o i) <> Some (Peer f))).

  (* an item, seen from an action before its receive *)
  Lemma item_pair p rest P S A sq i : Rel (p :: rest) P S A sq -> Forall (pairs p) rest -> (forall b c f, p <> BufRecv b c f) -> In i P ->
    apart (it_reg i) (R p) /\ apart (it_reg i) (W p) /\ i_in (sync_i cx o p) <> Some (Peer (it_f i)).
  Proof.
    intros HR HF Hp Hi. destruct (r_incl _ _ _ _ _ HR _ Hi) as (c & Ec & [Hc|Hc]); [destruct (Hp _ _ _ Hc)|].
    rewrite Forall_forall in HF. destruct (HF _ Hc) as [_ H]. destruct (H _ _ _ eq_refl) as (H1 & H2 & H3).
    unfold it_reg. rewrite Ec. split; [exact H1|]. split; [exact H2|]. destruct H3 as [(b' & c' & E)|H3]; auto. destruct (Hp _ _ _ E).
  Qed.

  Lemma rel_weaken p rest P S A sq : Rel (p :: rest) P S A sq -> (forall i, In i P -> exists c, it_n i = c * es /\ In (BufRecv (it_b i) c (it_f i)) rest) ->
    Rel rest P S A sq.
  Proof.
    intros HR H. destruct HR. constructor; auto. intros c q Hk. destruct (r_slot0 _ _ Hk) as (H1 & b & n & E & H2).
    split; auto. exists b, n. split; auto. intros x Hx. apply H2. right. auto.
  Qed.

  (* starting a send *)
  Lemma rel_isend k b c t rest P S A sq : 0 <= c -> Rel (BufSend b c t :: rest) P S A sq -> Forall (pairs (BufSend b c t)) rest ->
    ~ In k (map it_q P) -> ~ In k sq ->
    exists S' A', exec_i (sync_i cx o (BufSend b c t)) S = Some S' /\ do_op es (sync_i cx o) (MpiIsend b c t k) A = Some A' /\
      Rel rest P S' A' (k :: sq).
  Proof.
    intros Hc HR HF Hk Hs.
    assert (Hit : forall i, In i P -> apart (it_reg i) (region b (c * es))).
    { intros i Hi. destruct (item_pair _ _ _ _ _ _ _ HR HF ltac:(intros; discriminate) Hi) as (H & _). exact H. }
    assert (Hinc : forall i, In i P -> exists c, it_n i = c * es /\ In (BufRecv (it_b i) c (it_f i)) rest).
    { intros i Hi. destruct (r_incl _ _ _ _ _ HR _ Hi) as (c' & Ec & [Hc'|Hc']); [discriminate|eauto]. }
    apply rel_weaken in HR as HR'; auto.
    eexists. eexists. split; [|split].
    { unfold exec_i, sync_i, send_i. simpl. change (0 <? 0) with false. cbv iota. reflexivity. }
    { reflexivity. }
    destruct HR'. constructor; simpl; auto.
    - eapply items_keep; [| | |eapply items_ext; [|exact r_items0]]; simpl; auto.
      intros i Hi. rewrite setq_other; auto. intros E. apply Hk. rewrite <- E. apply in_map. auto.
    - intros x Hx. apply r_mem0. intros i Hi E. apply Hx; auto. rewrite setq_other; auto.
      intros E'. apply Hk. rewrite <- E'. apply in_map. auto.
    - intros d. unfold setc.
      assert (Hold : concat (map (resolve (mkX (x_mem A) (x_in A)
              (fun d0 => if chan_eq_dec d0 (Peer t) then x_out A (Peer t) ++ [Waiting k] else x_out A d0)
              (setq (x_rq A) k (RSend b (c * es))))) (x_out A d)) = p_out S d).
      { rewrite r_out0. f_equal. apply map_ext_in. intros s Hs'. destruct s as [y|q]; auto. simpl.
        rewrite setq_other; auto. intros ->. destruct (r_slot0 _ _ Hs'). tauto. }
      destruct (chan_eq_dec d (Peer t)) as [->|Hd]; auto.
      rewrite map_app, concat_app, Hold. simpl. rewrite setq_same, app_nil_r. f_equal. apply rdb_ext.
      intros x Hx. symmetry. apply r_mem0. intros i Hi _ Hr. exact (Hit i Hi x Hr Hx).
    - intros d q Hq. unfold setc in Hq.
      assert (HC : In (Waiting q) (x_out A d) \/ q = k).
      { destruct (chan_eq_dec d (Peer t)) as [->|Hd]; auto. apply in_app_or in Hq. destruct Hq as [Hq|[Hq|[]]]; auto. inversion Hq; auto. }
      destruct HC as [HC|HC].
      + destruct (r_slot0 _ _ HC) as (H1 & b2 & n2 & E2 & E3). split; auto. exists b2, n2. split; auto. rewrite setq_other; auto. congruence.
      + subst q. split; auto. exists b, (c * es). split; [apply setq_same|]. intros p Hp. rewrite Forall_forall in HF.
        destruct (HF _ Hp) as [HF1 _]. exact (HF1 _ _ _ eq_refl).
    - intros q b2 n2 bs H. destruct (Z.eq_dec q k) as [->|Hd]; [rewrite setq_same in H; discriminate|].
      rewrite setq_other in H by auto. eauto.
    - intros q [<-|H]; [right; exists b, (c * es); apply setq_same|]. rewrite setq_other by congruence. auto.
  Qed.

  (* waiting for a receive *)
  Lemma rel_wait k b c f rest P S A sq : 0 <= c -> Rel (BufRecv b c f :: rest) ((k, b, c * es, f) :: P) S A sq ->
    (forall i, In i P -> exists c, it_n i = c * es /\ In (BufRecv (it_b i) c (it_f i)) rest) ->
    x_rq A k = Some RDone ->
    exists S', exec_i (sync_i cx o (BufRecv b c f)) S = Some S' /\ Rel rest P S' A sq.
  Proof.
    intros Hc HR Hinc Hd. destruct HR. simpl in r_items0. unfold it_q, it_b, it_n, it_f in r_items0; simpl in r_items0.
    destruct r_items0 as [H1 H2]. destruct H1 as [H1|(_ & H3 & H4)]; [congruence|].
    set (bs := firstn (bytes (c * es)) (p_in S (Peer f))) in *.
    assert (Hlen : Z.of_nat (length (p_in S (Peer f))) >= c * es).
    { unfold bs in H3. rewrite firstn_length in H3. unfold bytes in H3. lia. }
    eexists. split.
    { unfold exec_i, sync_i, recv_i. simpl. destruct (_ <? _) eqn:E; [unfold es in *; lia|]. reflexivity. }
    assert (HN : ~ In k (map it_q P)) by (simpl in r_nodup0; inversion r_nodup0; auto).
    constructor; simpl; auto.
    - eapply items_ext; [|exact H2]. intros d. unfold setc. destruct (chan_eq_dec d (Peer f)) as [->|]; auto.
    - simpl in r_nodup0. inversion r_nodup0; auto.
    - inversion r_apart0; auto.
    - intros x Hx. fold es bs. destruct (region_dec b (c * es) x) as [Hr|Hr].
      + rewrite mwrite_in by (rewrite H3; exact Hr). rewrite <- H4. replace x with (b + (x - b)) at 1 by lia.
        rewrite rdb_nth; auto. unfold region in Hr. lia.
      + rewrite mwrite_keep by (rewrite H3; exact Hr). apply r_mem0. intros i [<-|Hi] E; auto.
    - intros d q Hq. destruct (r_slot0 _ _ Hq) as (E1 & b2 & n2 & E2 & E3). split; auto. exists b2, n2. split; auto.
      intros p Hp. apply E3. right. auto.
    - intros q b2 n2 bs2 H. destruct (r_recv0 _ _ _ _ H) as (i & [<-|Hi] & E); [|eauto]. unfold it_q in E; simpl in E. congruence.
  Qed.

  (* another action *)
  Lemma rel_other p rest P S A sq : Frame (o p) (rd p) (wr p) -> ~ is_mpi p -> is_m p = false ->
    Rel (p :: rest) P S A sq -> Forall (pairs p) rest ->
    match exec_i (sync_i cx o p) S, do_op es (sync_i cx o) p A with
    | Some S', Some A' => Rel rest P S' A' sq
    | None, None => True
    | _, _ => False
    end.
  Proof.
    intros HFr Hmpi Hm HR HF.
    assert (Hsy : sync_i cx o p = o p) by (destruct p; try discriminate; auto).
    assert (HRp : R p = rd p) by (unfold R, ard; destruct p; try discriminate; auto).
    assert (HWp : W p = wr p) by (unfold W, awr; destruct p; try discriminate; auto).
    assert (Hnr : forall b c f, p <> BufRecv b c f) by (intros; intros ->; discriminate).
    assert (Hit := fun i => item_pair _ _ _ _ _ _ i HR HF Hnr).
    assert (Hdo : do_op es (sync_i cx o) p A =
        match exec_i (o p) (mkP (x_mem A) (x_in A) (fun _ => [])) with
        | None => None
        | Some s => Some (mkX (p_mem s) (p_in s)
                      (fun c => if on c (i_out (o p)) then x_out A c ++ [Filled (i_send (o p) (x_mem A))] else x_out A c) (x_rq A))
        end).
    { rewrite <- Hsy. destruct p; try reflexivity; try (simpl in Hmpi; tauto). }
    rewrite Hdo, Hsy. clear Hdo.
    assert (Hinc : forall i, In i P -> exists c, it_n i = c * es /\ In (BufRecv (it_b i) c (it_f i)) rest).
    { intros i Hi. destruct (r_incl _ _ _ _ _ HR _ Hi) as (c' & Ec & [Hc'|Hc']); [destruct (Hnr _ _ _ Hc')|eauto]. }
    assert (Hslp : forall c q, In (Waiting q) (x_out A c) -> exists b n, x_rq A q = Some (RSend b n) /\ apart (wr p) (region b n)).
    { intros c q Hq. destruct (r_slot _ _ _ _ _ HR _ _ Hq) as (_ & b & n & E & H). exists b, n. split; auto. rewrite <- HWp. apply H. left. auto. }
    apply rel_weaken in HR as HR'; auto. destruct HR'.
    assert (Hav : match i_in (o p) with Some c => x_in A c | None => [] end = match i_in (o p) with Some c => p_in S c | None => [] end).
    { destruct (i_in (o p)) as [c|] eqn:E; auto. eapply items_chan; eauto. intros i Hi. destruct (Hit i Hi) as (_ & _ & H). rewrite Hsy, E in H. congruence. }
    unfold exec_i. simpl. rewrite Hav. destruct (_ <? _) eqn:Elen; auto.
    set (av := match i_in (o p) with Some c => p_in S c | None => [] end) in *.
    set (bs := firstn (bytes (i_take (o p))) av).
    destruct HFr as (F1 & F2 & F3 & F4 & F5).
    assert (Hbs : Z.of_nat (length bs) = i_take (o p)).
    { unfold bs. rewrite firstn_length. unfold bytes. lia. }
    assert (Hrd : forall x, rd p x -> x_mem A x = p_mem S x).
    { intros x Hx. apply r_mem0. intros i Hi _ Hr. destruct (Hit i Hi) as (H & _). rewrite HRp in H. exact (H x Hr Hx). }
    destruct (F5 _ _ bs Hbs Hrd) as [F6 F7].
    assert (Hq' : forall q, x_rq A q = x_rq A q) by auto.
    constructor; simpl; auto.
    - destruct (i_in (o p)) as [c0|] eqn:Ein.
      + assert (HX : Items P (setc (p_in S) c0 (skipn (bytes (i_take (o p))) (p_in S c0)))
                (mkX (x_mem A) (setc (x_in A) c0 (skipn (bytes (i_take (o p))) (p_in S c0))) (x_out A) (x_rq A))).
        { apply items_take; auto. intros i Hi. destruct (Hit i Hi) as (_ & _ & H). rewrite Hsy, Ein in H. congruence. }
        eapply items_keep; [| | |eapply items_ext; [|exact HX]]; simpl; auto.
        * intros c. unfold setc. destruct (chan_eq_dec c c0) as [->|]; auto. rewrite Hav. auto.
        * intros i x Hi _ Hr. symmetry. apply F4; auto. intros Hw. destruct (Hit i Hi) as (_ & H & _). rewrite HWp in H. exact (H x Hr Hw).
        * intros c. unfold setc. destruct (chan_eq_dec c c0) as [->|]; auto.
      + eapply items_keep; [| | |eapply items_ext; [|exact r_items0]]; simpl; auto.
        intros i x Hi _ Hr. symmetry. apply F4; auto. intros Hw. destruct (Hit i Hi) as (_ & H & _). rewrite HWp in H. exact (H x Hr Hw).
    - intros x Hx. destruct (F3 x) as [Hw|Hw]; [auto|]. rewrite !F4 by auto. apply r_mem0. auto.
    - intros c. assert (Hold : concat (map (resolve (mkX (i_write (o p) (x_mem A) bs)
              (fun c0 => if on c0 (i_in (o p)) then skipn (bytes (i_take (o p))) (x_in A c0) else x_in A c0)
              (fun c0 => if on c0 (i_out (o p)) then x_out A c0 ++ [Filled (i_send (o p) (x_mem A))] else x_out A c0) (x_rq A))) (x_out A c)) = p_out S c).
      { rewrite r_out0. f_equal. apply map_ext_in. intros s Hs. destruct s as [y|q]; auto. simpl.
        destruct (Hslp _ _ Hs) as (b & n & E & H). rewrite E. apply rdb_ext. intros x Hx. apply F4; auto. intros Hw. exact (H x Hw Hx). }
      destruct (on c (i_out (o p))); auto. rewrite map_app, concat_app, Hold. simpl. rewrite app_nil_r, F6. auto.
    - intros c q Hq. apply (r_slot0 c). destruct (on c (i_out (o p))); auto. apply in_app_or in Hq. destruct Hq as [Hq|[Hq|[]]]; auto. discriminate.
  Qed.
End Run.
