(** Helpers for the composition of the whole search: results under a translation of time, start groups. *)
From Coq Require Import List ZArith Bool Arith Lia Sorting.Sorted.
From Verif Require Import Base Time_Model Time_Proofs Pareto_Model Pareto_Proofs Start_Model Search_Model P_Search.
Import ListNotations.
Local Open Scope Z_scope.

Section AddMap.
  Context {A B : Type} (dA : A -> A -> bool) (dB : B -> B -> bool) (f : A -> B).
  Hypothesis Hf : forall x y, dB (f x) (f y) = dA x y.
  Lemma set_nth_map l : forall n x, map f (set_nth l n x) = set_nth (map f l) n (f x).
  Proof. induction l as [|y l IH]; intros [|n] x; cbn; auto. now rewrite IH. Qed.
  Lemma add_loop_map fuel : forall i n els el,
    map f (fst (add_loop A dA fuel i n els el)) = fst (add_loop B dB fuel i n (map f els) (f el)).
  Proof.
    induction fuel as [|fuel IH]; intros i n els el; cbn [add_loop].
    - cbn [fst]. now rewrite map_app, firstn_map, map_length.
    - rewrite nth_error_map. destruct (nth_error els i) as [x|]; cbn [option_map]; [|reflexivity].
      rewrite !Hf. destruct (dA x el); [reflexivity|]. destruct (dA el x); [apply IH|]. rewrite IH, set_nth_map. reflexivity.
  Qed.
  Lemma add_map els el : map f (fst (add A dA els el)) = fst (add B dB (map f els) (f el)).
  Proof. unfold add. now rewrite add_loop_map, map_length. Qed.
  Lemma add_fold_map js : forall els,
    map f (fold_left (fun s x => fst (add A dA s x)) js els) = fold_left (fun s x => fst (add B dB s x)) (map f js) (map f els).
  Proof. induction js as [|j js IH]; intros els; cbn [fold_left map]; auto. now rewrite IH, add_map. Qed.
End AddMap.

Lemma add_fold_in' {T} (dom : T -> T -> bool) js : forall rs r,
  In r (fold_left (fun s x => fst (add T dom s x)) js rs) -> In r rs \/ In r js.
Proof.
  induction js as [|j js IH]; intros rs r H; cbn [fold_left] in H; auto.
  apply IH in H. destruct H as [H|H]; [|right; now right]. apply add_in in H. destruct H as [->|H]; [right; now left|auto].
Qed.

(** Translation of a journey in time. *)
Definition shift_journey (b : Z) (j : journey) : journey := mk_journey (b + j_start j) (b + j_dest j) (j_transfers j).
Lemma shift_dominates b x y : journey_dominates (shift_journey b x) (shift_journey b y) = journey_dominates x y.
Proof.
  unfold journey_dominates, shift_journey. cbn [j_start j_dest j_transfers].
  assert (E : (b + j_start x <=? b + j_dest x) = (j_start x <=? j_dest x)) by (destruct (Z.leb_spec (b + j_start x) (b + j_dest x)), (Z.leb_spec (j_start x) (j_dest x)); lia).
  rewrite E.
  assert (F : forall u v, (b + u <=? b + v) = (u <=? v)) by (intros u v; destruct (Z.leb_spec (b + u) (b + v)), (Z.leb_spec u v); lia).
  now rewrite !F.
Qed.

(** ** Start groups *)
Lemma start_groups_mem l s : In s l -> exists g, In (st_at_start s, g) (start_groups l) /\ In s g.
Proof.
  induction l as [|x l IH]; cbn [start_groups]; [simpl; tauto|]. intros [->|H].
  - destruct (start_groups l) as [|[t0 g0] gs]; [exists [s]; simpl; auto|].
    destruct (Z.eqb_spec (st_at_start s) t0) as [<-|]; [exists (s :: g0)|exists [s]]; simpl; auto.
  - destruct (IH H) as (g & Hg & Hs). destruct (start_groups l) as [|[t0 g0] gs]; [destruct Hg|].
    destruct (Z.eqb_spec (st_at_start x) t0) as [E|E].
    + destruct Hg as [Hg|Hg]; [|exists g; simpl; auto]. injection Hg as E1 E2. subst t0 g0. exists (x :: g). split; [left; reflexivity|right; exact Hs].
    + exists g. split; [right; exact Hg|exact Hs].
Qed.
Lemma start_groups_member l t g s : In (t, g) (start_groups l) -> In s g -> In s l /\ st_at_start s = t.
Proof.
  revert t g. induction l as [|x l IH]; cbn [start_groups]; [simpl; tauto|]. intros t g H Hs.
  destruct (start_groups l) as [|[t0 g0] gs] eqn:E.
  - destruct H as [H|[]]. injection H as <- <-. destruct Hs as [<-|[]]. simpl; auto.
  - destruct (Z.eqb_spec (st_at_start x) t0) as [Ex|Ex].
    + destruct H as [H|H].
      * injection H as <- <-. destruct Hs as [<-|Hs]; [simpl; auto|]. destruct (IH t0 g0) as [A B]; [now left|auto|]. simpl; auto.
      * destruct (IH t g) as [A B]; [now right|auto|]. simpl; auto.
    + destruct H as [H|H].
      * injection H as <- <-. destruct Hs as [<-|[]]. simpl; auto.
      * destruct (IH t g) as [A B]; [auto|auto|]. simpl; auto.
Qed.
Lemma start_groups_strict fwd l : StronglySorted (searched_before fwd) l ->
  StronglySorted (fun a b => dirz fwd (fst b) < dirz fwd (fst a)) (start_groups l).
Proof.
  induction 1 as [|x l Hs IH Hf]; cbn [start_groups]; [constructor|].
  assert (Hall : forall tg, In tg (start_groups l) -> dirz fwd (fst tg) <= dirz fwd (st_at_start x)).
  { intros [t g] H. apply start_groups_in in H. destruct H as (s & Hin & <-). rewrite Forall_forall in Hf. now apply Hf. }
  destruct (start_groups l) as [|[t0 g0] gs]; [repeat constructor|].
  inversion IH as [|? ? I1 I2]; subst.
  destruct (Z.eqb_spec (st_at_start x) t0) as [E|E].
  - constructor; auto.
  - assert (H0 := Hall _ (or_introl eq_refl)). cbn [fst] in H0. assert (dirz fwd t0 <> dirz fwd (st_at_start x)) by (unfold dirz; destruct fwd; lia).
    constructor; [constructor; auto|]. constructor; [cbn [fst]; lia|]. rewrite Forall_forall in *. intros tg Htg. specialize (I2 tg Htg). cbn [fst] in *. lia.
Qed.
Lemma sorted_split {T} (R : T -> T -> Prop) l l1 x l2 : StronglySorted R l -> l = l1 ++ x :: l2 -> forall y, In y l1 -> R y x.
Proof.
  intros H. revert l1. induction H as [|a l Hs IH Hf]; intros l1 E y Hy; [destruct l1; discriminate|].
  destruct l1 as [|b l1]; [destruct Hy|]. cbn in E. injection E as -> E. destruct Hy as [->|Hy]; [|eapply IH; eauto].
  rewrite Forall_forall in Hf. apply Hf. rewrite E. apply in_app_iff. right. now left.
Qed.
