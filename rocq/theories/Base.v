(** Shared list and integer helpers used by the models (no nigiri semantics in here). *)
From Coq Require Import List ZArith Lia Bool Arith.
Import ListNotations.

(** Overwrite the [n]-th element ([v[n] = x] on a C++ vector; out of range writes are ignored). *)
Fixpoint set_nth {A} (l : list A) (n : nat) (x : A) : list A :=
  match l, n with
  | [], _ => []
  | _ :: l', O => x :: l'
  | y :: l', S n' => y :: set_nth l' n' x
  end.

Lemma set_nth_length {A} (l : list A) n x : length (set_nth l n x) = length l.
Proof. revert n; induction l; intros [|n]; simpl; auto. Qed.

Lemma nth_error_set_nth_eq {A} (l : list A) n x :
  n < length l -> nth_error (set_nth l n x) n = Some x.
Proof. revert n; induction l; intros [|n]; simpl; intros; try lia; auto. apply IHl; lia. Qed.

Lemma nth_error_set_nth_neq {A} (l : list A) n m x :
  n <> m -> nth_error (set_nth l n x) m = nth_error l m.
Proof. revert n m; induction l; intros [|n] [|m]; simpl; intros; try lia; auto. Qed.

Lemma nth_set_nth {A} (l : list A) n m x d :
  nth m (set_nth l n x) d = if (Nat.eqb n m && Nat.ltb n (length l))%bool then x else nth m l d.
Proof.
  revert n m; induction l; intros [|n] [|m]; simpl; auto.
  - now rewrite Bool.andb_false_r.
  - rewrite IHl. reflexivity.
Qed.

Lemma nth_set_nth_eq {A} (l : list A) n x d : n < length l -> nth n (set_nth l n x) d = x.
Proof.
  intros. rewrite nth_set_nth, Nat.eqb_refl. simpl.
  destruct (Nat.ltb_spec n (length l)); auto; lia.
Qed.

Lemma nth_set_nth_neq {A} (l : list A) n m x d : n <> m -> nth m (set_nth l n x) d = nth m l d.
Proof. intros. rewrite nth_set_nth. destruct (Nat.eqb_spec n m); simpl; auto; lia. Qed.

Lemma set_nth_same {A} (l : list A) n x : nth_error l n = Some x -> set_nth l n x = l.
Proof. revert n; induction l; intros [|n]; simpl; intros; try congruence. f_equal; auto. Qed.

Lemma set_nth_out {A} (l : list A) n x : length l <= n -> set_nth l n x = l.
Proof. revert n; induction l; intros [|n]; simpl; intros; auto; try lia. f_equal. apply IHl. lia. Qed.

Lemma firstn_set_nth {A} (l : list A) n m x : m <= n -> firstn m (set_nth l n x) = firstn m l.
Proof. revert n m; induction l; intros [|n] [|m]; simpl; intros; auto; try lia. f_equal; apply IHl; lia. Qed.

Lemma skipn_set_nth {A} (l : list A) n m x : n < m -> skipn m (set_nth l n x) = skipn m l.
Proof. revert n m; induction l; intros [|n] [|m]; simpl; intros; auto; try lia. apply IHl; lia. Qed.

Lemma firstn_S_nth_error {A} (l : list A) n x :
  nth_error l n = Some x -> firstn (S n) l = firstn n l ++ [x].
Proof. revert n; induction l; intros [|n]; simpl; intros; try congruence. f_equal. apply IHl; auto. Qed.

Lemma firstn_S_set_nth {A} (l : list A) n x :
  n < length l -> firstn (S n) (set_nth l n x) = firstn n l ++ [x].
Proof.
  intros. rewrite (firstn_S_nth_error _ _ x) by now apply nth_error_set_nth_eq.
  now rewrite firstn_set_nth by lia.
Qed.

Lemma skipn_nth_error_eq {A} (l m : list A) i j :
  skipn i l = skipn i m -> i <= j -> nth_error l j = nth_error m j.
Proof.
  intros H Hij. replace j with (i + (j - i)) by lia.
  rewrite <- (firstn_skipn i l) at 1. rewrite <- (firstn_skipn i m) at 1.
  destruct (Nat.le_gt_cases i (length l)); destruct (Nat.le_gt_cases i (length m)).
  - rewrite !nth_error_app2; rewrite ?firstn_length_le; auto; try lia. now rewrite H.
  - rewrite !nth_error_app2; rewrite ?firstn_length; try lia.
    rewrite H. rewrite (skipn_all2 m) by lia. now destruct (i + (j - i) - _), (i + (j-i) - _).
  - rewrite !nth_error_app2; rewrite ?firstn_length; try lia.
    rewrite H. rewrite <- H. rewrite (skipn_all2 l) by lia. now destruct (i + (j - i) - _), (i + (j-i) - _).
  - rewrite !nth_error_app2; rewrite ?firstn_length; try lia.
    rewrite !skipn_all2 by lia. now destruct (i + (j - i) - _), (i + (j-i) - _).
Qed.

(** Count down helpers for [Z]-valued loops. *)
Lemma Z_div_mod_unique (b q r : Z) : (0 < b -> 0 <= r < b -> (b * q + r) / b = q /\ (b * q + r) mod b = r)%Z.
Proof.
  intros Hb Hr. rewrite (Z.mul_comm b q), Z.add_comm. split.
  - rewrite Z.div_add by lia. rewrite Z.div_small; lia.
  - rewrite Z.mod_add by lia. apply Z.mod_small; lia.
Qed.

Lemma skipn_skipn {A} (l : list A) n m : skipn n (skipn m l) = skipn (n + m) l.
Proof.
  revert l; induction m as [|m IH]; intros l.
  - now rewrite Nat.add_0_r.
  - rewrite Nat.add_succ_r. destruct l; simpl; auto. now rewrite skipn_nil.
Qed.
