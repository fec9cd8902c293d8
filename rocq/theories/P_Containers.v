(** Property theorems C08 (bucket queue), C09 (string store). *)
From Coq Require Import List Arith Bool Lia Permutation.
From Verif Require Import Base Dial_Model Dial_Proofs Store_Proofs.
Import ListNotations.

(** * C08  Bucket queue *)
Section C08.
  Variable T : Type.
  Variable key : T -> nat.

  (** Specification: a priority queue is a bag of elements; a removal takes some element with the smallest
      key out of the bag. *)
  Inductive pq_op := Push (x : T) | Pop | Clear.
  Definition minimal (x : T) (bag : list T) : Prop := In x bag /\ forall y, In y bag -> key x <= key y.
  (** [behaves bag h bag' removed]: started with [bag], the operations [h] may leave [bag'] and remove the
      elements [removed] in this order. *)
  Inductive behaves : list T -> list pq_op -> list T -> list T -> Prop :=
  | b_nil bag : behaves bag [] bag []
  | b_push bag x h bag' r : behaves (x :: bag) h bag' r -> behaves bag (Push x :: h) bag' r
  | b_pop bag x rest h bag' r : minimal x bag -> Permutation bag (x :: rest) ->
      behaves rest h bag' r -> behaves bag (Pop :: h) bag' (x :: r)
  | b_clear bag h bag' r : behaves [] h bag' r -> behaves bag (Clear :: h) bag' r.

  (** Precondition of the operations (assertions in the code): keys in range, no removal from an empty queue. *)
  Fixpoint admissible (max_key size : nat) (h : list pq_op) : Prop :=
    match h with
    | [] => True
    | Push x :: h' => key x <= max_key /\ admissible max_key (S size) h'
    | Pop :: h' => 0 < size /\ admissible max_key (size - 1) h'
    | Clear :: h' => admissible max_key 0 h'
    end.

  (** Running the code: the client reads [top] and then calls [pop]. *)
  Fixpoint dial_run (d : dial T) (h : list pq_op) : option (dial T * list T) :=
    match h with
    | [] => Some (d, [])
    | Push x :: h' => match dial_push key d x with Some d' => dial_run d' h' | None => None end
    | Pop :: h' =>
        match dial_top d with
        | Some (x, d1) => match dial_pop d1 with
                          | Some d' => match dial_run d' h' with Some (e, r) => Some (e, x :: r) | None => None end
                          | None => None end
        | None => None
        end
    | Clear :: h' => dial_run (dial_clear d) h'
    end.

  Lemma behaves_perm b h b' r : behaves b h b' r -> forall c, Permutation b c ->
    exists c', Permutation b' c' /\ behaves c h c' r.
  Proof.
    induction 1; intros c Hc.
    - exists c. split; auto. constructor.
    - destruct (IHbehaves (x :: c)) as (c' & H1 & H2); [now constructor|]. exists c'. split; auto. now constructor.
    - destruct (IHbehaves rest (Permutation_refl _)) as (c' & H3 & H4). exists c'. split; auto.
      apply b_pop with rest; auto.
      + destruct H as [Hi Hm]. split.
        * now apply (Permutation_in _ Hc).
        * intros y Hy. apply Hm. apply (Permutation_in _ (Permutation_sym Hc)); auto.
      + now rewrite <- Hc.
    - destruct (IHbehaves [] (Permutation_refl _)) as (c' & H1 & H2). exists c'. split; auto. now constructor.
  Qed.

  Lemma run_ok m h : forall d, dinv key (m + 1) d -> admissible m (length (content d)) h ->
    exists d' r, dial_run d h = Some (d', r) /\ dinv key (m + 1) d' /\
      exists bag, behaves (content d) h bag r /\ Permutation bag (content d').
  Proof.
    induction h as [|[x| |] h IH]; intros d Hd Ha; simpl in Ha.
    - exists d, []. split; [reflexivity|]. split; auto. exists (content d). split; constructor || auto.
    - destruct Ha as [Hk Ha]. destruct (push_spec key _ _ x Hd) as [He Hp].
      destruct He as (d1 & E); [lia|]. destruct (Hp _ E) as (_ & Hd1 & P1).
      destruct (IH d1 Hd1) as (d' & r & R & I & bag & B & PB).
      { now rewrite (Permutation_length P1). }
      exists d', r. simpl. rewrite E. split; auto. split; auto.
      destruct (behaves_perm _ _ _ _ B _ P1) as (c' & Q1 & Q2).
      exists c'. split; [now constructor|]. now rewrite <- Q1.
    - destruct Ha as [Hn Ha].
      assert (Hne : content d <> []) by (intros E0; rewrite E0 in Hn; simpl in Hn; lia).
      destruct (top_spec key _ _ Hd Hne) as (x & d1 & Et & Hd1 & Eb & _ & Hin & Hmin & Ep & _).
      destruct (pop_spec key _ _ Hd Hne) as (x' & d0 & d2 & Et' & Ep' & Hd2 & P2).
      rewrite Et in Et'. injection Et' as <- <-.
      destruct (IH d2 Hd2) as (d' & r & R & I & bag & B & PB).
      { rewrite (Permutation_length P2) in Ha. simpl in Ha. now rewrite Nat.sub_0_r in Ha. }
      exists d', (x :: r). simpl. rewrite Et, Ep, Ep', R. split; auto. split; auto.
      exists bag. split; auto. apply b_pop with (content d2); auto. split; auto.
    - destruct (clear_spec key _ _ Hd) as [Hd1 E1].
      destruct (IH _ Hd1) as (d' & r & R & I & bag & B & PB).
      { now rewrite E1. }
      exists d', r. split; auto. split; auto. exists bag. split; auto.
      rewrite E1 in B. now constructor.
  Qed.

  (** Every admissible history runs without touching anything out of range and behaves like a priority
      queue; afterwards [size]/[empty] are exact, reading the top is a smallest element and does not change
      what a following removal does. *)
  Theorem C08_dial_is_priority_queue : forall (max_key : nat) (h : list pq_op),
    admissible max_key 0 h ->
    exists d removed bag,
      dial_run (dial_new max_key) h = Some (d, removed) /\
      behaves [] h bag removed /\
      q_size d = length bag /\
      (dial_empty d = true <-> bag = []) /\
      match dial_top d with
      | Some (x, d') => minimal x bag /\ q_size d' = q_size d /\ dial_pop d' = dial_pop d
      | None => bag = []
      end.
  Proof.
    intros m h Ha.
    pose proof (dinv_new (T := T) key m) as Hd.
    assert (E0 : content (@dial_new T m) = []).
    { destruct Hd as (_ & Hs & _). simpl in Hs. now destruct (content _). }
    destruct (run_ok m h _ Hd) as (d & r & R & I & bag & B & PB).
    { now rewrite E0. }
    exists d, r, bag. rewrite E0 in B. split; auto. split; auto.
    pose proof I as (Il & Is & _).
    assert (Hsz : q_size d = length bag) by (rewrite (Permutation_length PB); auto).
    split; auto. split.
    - unfold dial_empty. rewrite Nat.eqb_eq, Hsz. destruct bag; simpl; split; auto; discriminate.
    - destruct (content d) as [|y c] eqn:Ec.
      + destruct (top_pop_empty key _ _ I Ec) as [-> _]. apply Permutation_sym, Permutation_nil in PB. auto.
      + assert (Hne : content d <> []) by congruence.
        destruct (top_spec key _ _ I Hne) as (x & d1 & -> & Hd1 & Eb & Es & Hin & Hmin & Ep & _).
        rewrite Ec in Hin, Hmin. split; auto. split.
        * now apply (Permutation_in _ (Permutation_sym PB)).
        * intros z Hz. apply Hmin. now apply (Permutation_in _ PB).
  Qed.
End C08.

(** Non-vacuity: a smaller key arrives after the queue has moved on. *)
Example C08_nonvacuous :
  let key (x : nat * nat) := fst x in
  let h := [Push _ (5,0); Push _ (7,1); Pop _; Push _ (2,2); Push _ (7,3); Pop _; Pop _] in
  admissible _ key 10 0 h /\
  option_map snd (dial_run _ key (dial_new 10) h) = Some [(5,0); (2,2); (7,3)].
Proof. split; [simpl; lia|reflexivity]. Qed.

(** * C09  String interning *)
Section C09.
  Variable str : Type.
  Variable eqb : str -> str -> bool.
  Variable hash : str -> nat.
  Hypothesis eqb_ok : forall a b, eqb a b = true <-> a = b.

  (** A history is a list of stored strings, each with the size of the hash table at that moment. *)
  Definition good_history (n0 : nat) (h : list (nat * str)) : Prop := 0 < n0 /\ forall g, In g (map fst h) -> 0 < g.
  Notation run := (store_run str eqb hash).
  Notation get := (store_get str).

  (** The stored strings are in bijection with the indices below [size]; lookup is the inverse of [get]. *)
  Theorem C09_bijection : forall n0 h, good_history n0 h ->
    let st := run n0 h in
    (forall i, i < store_size str st <-> exists s, get st i = Some s) /\
    (forall s, In s (map snd h) <-> exists i, get st i = Some s) /\
    (forall i j s, get st i = Some s -> get st j = Some s -> i = j) /\
    (forall s i, store_find str eqb hash st s = Some i <-> get st i = Some s) /\
    (forall s, store_find str eqb hash st s = None <-> ~ In s (map snd h)).
  Proof.
    intros n0 h [H0 Hg] st.
    destruct (run_spec eqb hash eqb_ok n0 h H0 Hg) as [Hi Hin]. fold st in Hi, Hin.
    unfold store_get, store_size. split; [|split; [|split; [|split]]].
    - intros i. rewrite <- nth_error_Some. destruct (nth_error _ i); split; try congruence; eauto.
      intros (s & Hs); discriminate.
    - intros s. rewrite <- Hin. split; [apply In_nth_error|]. intros (i & H). eapply nth_error_In; eauto.
    - intros i j s. destruct Hi as (_ & Hd & _). now apply nodup_index.
    - intros s i. pose proof (find_spec eqb hash eqb_ok st s Hi) as F. split.
      + intros E. now rewrite E in F.
      + intros E. destruct (store_find _ _ _ _ _) as [j|].
        * f_equal. destruct Hi as (_ & Hd & _). eapply nodup_index; eauto.
        * exfalso. apply F. eapply nth_error_In; eauto.
    - intros s. pose proof (find_spec eqb hash eqb_ok st s Hi) as F. rewrite <- Hin.
      destruct (store_find _ _ _ _ _) as [j|]; [|tauto].
      split; [discriminate|]. intros H. exfalso. apply H. eapply nth_error_In; eauto.
  Qed.

  (** One more [store]: returns the index under which the string can be read, the old index if the string was
      known, a fresh one otherwise, and never invalidates an index. *)
  Theorem C09_store : forall n0 h g s, good_history n0 (h ++ [(g, s)]) ->
    let st := run n0 h in
    let (i, st') := store_store str eqb hash g st s in
    get st' i = Some s /\
    (forall j, get st j = Some s -> i = j) /\
    ((forall j, get st j <> Some s) -> i = store_size str st) /\
    (forall j x, get st j = Some x -> get st' j = Some x) /\
    store_size str st' = store_size str st + (if store_find str eqb hash st s then 0 else 1).
  Proof.
    intros n0 h g s [H0 Hg] st.
    assert (Hi : sinv hash st).
    { apply run_spec; auto. intros x Hx. apply Hg. rewrite map_app, in_app_iff. now left. }
    assert (Hgp : 0 < g) by (apply Hg; rewrite map_app, in_app_iff; right; now left).
    pose proof (store_spec eqb hash eqb_ok g st s Hgp Hi) as H.
    pose proof (store_prefix eqb hash eqb_ok g st s Hgp Hi) as HP.
    pose proof (find_spec eqb hash eqb_ok st s Hi) as F.
    destruct (store_store str eqb hash g st s) as [i st'] eqn:E.
    unfold store_get, store_size. simpl in HP. destruct HP as (tail & HP).
    destruct H as (H1 & H2 & H3).
    assert (Hkeep : forall j x, nth_error (st_strings st) j = Some x -> nth_error (st_strings st') j = Some x).
    { intros j x Hj. rewrite HP, nth_error_app1; auto. apply nth_error_Some; congruence. }
    split; [auto|split; [|split; [|split]]]; auto.
    - intros j Hj. destruct H1 as (_ & Hd & _). apply (nodup_index (st_strings st') i j s); auto.
    - intros Hno. destruct H3 as [[H3 ->]|(H3 & -> & _)]; auto.
      exfalso. apply In_nth_error in H3. destruct H3 as (j & Hj). now apply (Hno j).
    - destruct H3 as [[H3 ->]|(H3 & -> & ->)].
      + destruct (store_find _ _ _ _ _); [lia|tauto].
      + rewrite app_length. simpl. destruct (store_find _ _ _ _ _) as [j|]; [|lia].
        exfalso. apply H3. eapply nth_error_In; eauto.
  Qed.
End C09.

Example C09_nonvacuous :
  let st := store_run nat Nat.eqb (fun n => n) 1 [(2, 40); (4, 7); (4, 40); (4, 11)] in
  st_strings st = [40; 7; 11] /\ store_find nat Nat.eqb (fun n => n) st 11 = Some 2
  /\ store_find nat Nat.eqb (fun n => n) st 8 = None.
Proof. repeat split; reflexivity. Qed.

Print Assumptions C08_dial_is_priority_queue.
Print Assumptions C09_bijection.
Print Assumptions C09_store.
