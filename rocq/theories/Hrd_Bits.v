(** Proofs about the HRD bit sets and about splitting a service by its
    sections' traffic days. *)
From Coq Require Import List Arith ZArith Bool Lia.
From Verif Require Import Hrd_Model.
Import ListNotations.

Lemma mem_In : forall d b, mem d b = true <-> In d b.
Proof.
  intros d b. unfold mem. rewrite existsb_exists. split.
  - intros [x [I E]]. apply Nat.eqb_eq in E. subst x. exact I.
  - intros I. exists d. split; [exact I | apply Nat.eqb_refl].
Qed.

Lemma mem_false : forall d b, mem d b = false <-> ~ In d b.
Proof.
  intros d b. rewrite <- mem_In. destruct (mem d b); split; intros H; try congruence; try discriminate; try (exfalso; apply H; reflexivity).
Qed.

Lemma In_bset : forall d x b, In x (bset d b) <-> x = d \/ In x b.
Proof.
  intros d x b. unfold bset. destruct (mem d b) eqn:M.
  - apply mem_In in M. split; [auto | intros [-> | I]; assumption].
  - simpl. split; intros [E | I]; auto.
Qed.

Lemma In_breset : forall d x b, In x (breset d b) <-> x <> d /\ In x b.
Proof.
  intros d x b. unfold breset. rewrite filter_In. split.
  - intros [I N]. split; [| exact I]. intros ->. rewrite Nat.eqb_refl in N. discriminate.
  - intros [N I]. split; [exact I |]. apply negb_true_iff, Nat.eqb_neq. exact N.
Qed.

Lemma In_band : forall x a b, In x (band a b) <-> In x a /\ In x b.
Proof. intros. unfold band. rewrite filter_In, mem_In. reflexivity. Qed.

Lemma In_bminus : forall x a b, In x (bminus a b) <-> In x a /\ ~ In x b.
Proof. intros. unfold bminus. rewrite filter_In, negb_true_iff, mem_false. reflexivity. Qed.

Lemma bnone_true : forall a, bnone a = true <-> forall x, ~ In x a.
Proof.
  intros [| h t]; simpl; split; intros H; auto; try discriminate.
  exfalso. apply (H h). left. reflexivity.
Qed.
Lemma bnone_false : forall a, bnone a = false <-> exists x, In x a.
Proof.
  intros [| h t]; simpl; split; intros H; try discriminate; auto.
  - destruct H as [x []].
  - exists h. left. reflexivity.
Qed.

(* ------------------------------------------------------------------ *)
(** * The start marker *)

Definition bst0 : bst := {| b_started := false; b_prev := false; b_i := 0; b_bits := [] |}.

(** A pair of adjacent set bits at position [k]. *)
Definition pair_at (l : list bool) (k : nat) : Prop :=
  nth k l false = true /\ nth (S k) l false = true.

Lemma consume_started : forall rest s,
  b_started s = true ->
  let s' := fold_left consume_bit rest s in
  b_started s' = true /\
  forall x, In x (b_bits s') <->
    In x (b_bits s) \/ (b_i s <= x /\ nth (x - b_i s) rest false = true).
Proof.
  induction rest as [| c rest IH]; intros s St; cbv zeta; simpl fold_left.
  - split; [exact St |]. intros x. split; [auto |].
    intros [I | [_ N]]; [exact I |]. destruct (x - b_i s); discriminate.
  - assert (E : b_started (consume_bit s c) = true) by (unfold consume_bit; rewrite St; reflexivity).
    specialize (IH _ E). cbv zeta in IH. destruct IH as [A B]. split; [exact A |].
    intros x. rewrite B. unfold consume_bit. rewrite St. cbn [b_bits b_i].
    split.
    + intros [I | [L N]].
      * destruct c.
        -- apply In_bset in I. destruct I as [-> | I]; [| auto].
           right. split; [lia |]. rewrite Nat.sub_diag. reflexivity.
        -- auto.
      * right. split; [lia |]. replace (x - b_i s) with (S (x - S (b_i s))) by lia. exact N.
    + intros [I | [L N]].
      * left. destruct c; [apply In_bset; auto | exact I].
      * destruct (x - b_i s) as [| k] eqn:K.
        -- cbn in N. subst c. left. apply In_bset. left. lia.
        -- right. split; [lia |]. replace (x - S (b_i s)) with k by lia. exact N.
Qed.

Lemma consume_not_started : forall bits p i b,
  (forall k, ~ pair_at (p :: bits) k) ->
  b_started (fold_left consume_bit bits
    {| b_started := false; b_prev := p; b_i := i; b_bits := b |}) = false.
Proof.
  induction bits as [| c bits IH]; intros p i b N; simpl fold_left; [reflexivity |].
  unfold consume_bit. cbn [b_started b_prev b_i b_bits].
  assert (E : p && c = false).
  { destruct p, c; try reflexivity. exfalso. apply (N 0). split; reflexivity. }
  rewrite E. apply IH. intros k [A B]. apply (N (S k)). split; assumption.
Qed.

Lemma consume_start : forall pre p rest,
  (forall k, k <= length pre -> ~ pair_at (p :: pre ++ true :: true :: rest) k) ->
  let s := fold_left consume_bit (pre ++ [true; true])
    {| b_started := false; b_prev := p; b_i := 0; b_bits := [] |} in
  b_started s = true /\ b_bits s = [] /\ b_i s = 0.
Proof.
  induction pre as [| c pre IH]; intros p rest N; cbv zeta.
  - assert (p = false) as ->.
    { destruct p; [| reflexivity]. exfalso. apply (N 0 (le_n _)). split; reflexivity. }
    cbn. auto.
  - assert (E : consume_bit {| b_started := false; b_prev := p; b_i := 0; b_bits := [] |} c
                = {| b_started := false; b_prev := c; b_i := 0; b_bits := [] |}).
    { unfold consume_bit. cbn [b_started b_prev b_i b_bits].
      destruct p, c; try reflexivity. exfalso. apply (N 0); [simpl; lia |]. split; reflexivity. }
    cbn [app fold_left]. rewrite E. apply IH with (rest := rest).
    intros k K [A B]. apply (N (S k)); [simpl; lia |]. split; assumption.
Qed.

Lemma first_pair : forall l,
  (forall k, ~ pair_at l k) \/
  (exists k, pair_at l k /\ forall k', k' < k -> ~ pair_at l k').
Proof.
  induction l as [| a l IH].
  - left. intros k [A _]. destruct k; discriminate.
  - destruct a, (nth 0 l false) eqn:E.
    + right. exists 0. split; [split; [reflexivity | exact E] |]. intros k' K. lia.
    + destruct IH as [N | [k [P F]]].
      * left. intros [| k] [A B]; [cbn in B; congruence |]. apply (N k). split; assumption.
      * right. exists (S k). split; [exact P |]. intros [| k'] K [A B]; [cbn in B; congruence |].
        apply (F k'); [lia | split; assumption].
    + destruct IH as [N | [k [P F]]].
      * left. intros [| k] [A B]; [cbn in A; congruence |]. apply (N k). split; assumption.
      * right. exists (S k). split; [exact P |]. intros [| k'] K [A B]; [cbn in A; congruence |].
        apply (F k'); [lia | split; assumption].
    + destruct IH as [N | [k [P F]]].
      * left. intros [| k] [A B]; [cbn in A; congruence |]. apply (N k). split; assumption.
      * right. exists (S k). split; [exact P |]. intros [| k'] K [A B]; [cbn in A; congruence |].
        apply (F k'); [lia | split; assumption].
Qed.

Lemma pair_split : forall l k, pair_at l k ->
  l = firstn k l ++ true :: true :: skipn (S (S k)) l /\ length (firstn k l) = k.
Proof.
  induction l as [| a l IH]; intros k [A B]; [destruct k; discriminate |].
  destruct k as [| k].
  - cbn in A, B. subst a. destruct l as [| b l]; [discriminate |]. cbn in B. subst b. split; reflexivity.
  - destruct (IH k (conj A B)) as [E L]. split; [| cbn; rewrite L; reflexivity].
    cbn [firstn app skipn]. f_equal. exact E.
Qed.

Lemma start_state : forall bits s,
  pair_at bits s -> (forall k, k < s -> ~ pair_at bits k) ->
  let st := fold_left consume_bit bits bst0 in
  b_started st = true /\
  forall x, In x (b_bits st) <-> nth x (skipn (S (S s)) bits) false = true.
Proof.
  intros bits s P F. cbv zeta. destruct (pair_split _ _ P) as [E L].
  remember (skipn (S (S s)) bits) as rest eqn:R.
  remember (firstn s bits) as pre eqn:Q. clear R Q. subst bits.
  replace (pre ++ true :: true :: rest) with ((pre ++ [true; true]) ++ rest)
    by (rewrite <- app_assoc; reflexivity).
  rewrite fold_left_app.
  assert (N : forall k, k <= length pre -> ~ pair_at (false :: pre ++ true :: true :: rest) k).
  { intros [| k] K [A B]; [cbn in A; discriminate |]. apply (F k); [lia | split; assumption]. }
  destruct (consume_start pre false rest N) as [S1 [S2 S3]].
  destruct (consume_started rest _ S1) as [T1 T2]. fold bst0 in *.
  split; [exact T1 |]. intros x. rewrite T2, S2, S3, Nat.sub_0_r. split.
  - intros [[] | [_ H]]. exact H.
  - intros H. right. split; [lia | exact H].
Qed.

Lemma decode_none_start : forall bits, (forall k, ~ pair_at bits k) -> decode_bits bits = None.
Proof.
  intros bits N. unfold decode_bits. cbv zeta.
  rewrite consume_not_started; [reflexivity |].
  intros [| k] [A B]; [cbn in A; discriminate |]. apply (N k). split; assumption.
Qed.

(* ------------------------------------------------------------------ *)
(** * The end marker *)

Lemma find_end_spec : forall r n b,
  (forall x, In x b <-> x < n /\ nth x r false = true) ->
  match find_end n (nth n r false) b with
  | Some b' => exists e, e < n /\ pair_at r e /\ (forall k, e < k < n -> ~ pair_at r k) /\
                 (forall x, In x b' <-> x < e /\ nth x r false = true)
  | None => forall k, k < n -> ~ pair_at r k
  end.
Proof.
  intros r. induction n as [| j IH]; intros b B; cbn [find_end].
  - intros k K. lia.
  - assert (M : mem j b = nth j r false).
    { destruct (nth j r false) eqn:E.
      - apply mem_In, B. split; [lia | exact E].
      - apply mem_false. intros I. apply B in I. destruct I as [_ I]. congruence. }
    assert (B' : forall x, In x (breset j b) <-> x < j /\ nth x r false = true).
    { intros x. rewrite In_breset, B. split.
      - intros [N [L H]]. split; [lia | exact H].
      - intros [L H]. repeat split; [lia | lia | exact H]. }
    rewrite M. destruct (nth (S j) r false && nth j r false) eqn:P.
    + apply andb_true_iff in P. destruct P as [P1 P2].
      exists j. split; [lia |]. split; [split; assumption |]. split; [intros k K; lia | exact B'].
    + specialize (IH _ B'). destruct (find_end j (nth j r false) (breset j b)) as [b' |].
      * destruct IH as [e [L [Pe [F D]]]]. exists e. split; [lia |]. split; [exact Pe |].
        split; [| exact D]. intros k K [A1 A2]. destruct (Nat.eq_dec k j) as [-> | Nk].
        -- rewrite A1, A2 in P. discriminate.
        -- apply (F k); [lia | split; assumption].
      * intros k K [A1 A2]. destruct (Nat.eq_dec k j) as [-> | Nk].
        -- rewrite A1, A2 in P. discriminate.
        -- apply (IH k); [lia | split; assumption].
Qed.

Lemma decode_spec : forall bits s,
  pair_at bits s -> (forall k, k < s -> ~ pair_at bits k) ->
  length bits <= s + 2 + kMaxDays ->
  let r := skipn (S (S s)) bits in
  match decode_bits bits with
  | Some b => exists e, pair_at r e /\ (forall k, e < k -> ~ pair_at r k) /\
                (forall x, In x b <-> x < e /\ nth x r false = true)
  | None => forall k, ~ pair_at r k
  end.
Proof.
  intros bits s P F Len r. unfold decode_bits. cbv zeta. fold bst0.
  destruct (start_state bits s P F) as [S1 S2]. rewrite S1. fold r in S2.
  assert (Lr : length r <= kMaxDays) by (unfold r; rewrite skipn_length; lia).
  assert (O : forall k, kMaxDays <= k -> nth k r false = false) by (intros k K; apply nth_overflow; lia).
  pose proof (find_end_spec r kMaxDays (b_bits (fold_left consume_bit bits bst0))) as H.
  rewrite (O kMaxDays (le_n _)) in H.
  assert (B : forall x, In x (b_bits (fold_left consume_bit bits bst0)) <->
                x < kMaxDays /\ nth x r false = true).
  { intros x. rewrite S2. split; [| tauto]. intros N. split; [| exact N].
    destruct (le_lt_dec kMaxDays x) as [L | L]; [| exact L]. rewrite (O x L) in N. discriminate. }
  specialize (H B).
  destruct (find_end kMaxDays false (b_bits (fold_left consume_bit bits bst0))) as [b' |].
  - destruct H as [e [L [Pe [G D]]]]. exists e. split; [exact Pe |]. split; [| exact D].
    intros k K Pk. destruct (le_lt_dec kMaxDays k) as [L' | L'].
    + destruct Pk as [A _]. rewrite (O k L') in A. discriminate.
    + apply (G k); [lia | exact Pk].
  - intros k Pk. destruct (le_lt_dec kMaxDays k) as [L' | L'].
    + destruct Pk as [A _]. rewrite (O k L') in A. discriminate.
    + apply (H k L' Pk).
Qed.

(* ------------------------------------------------------------------ *)
(** * Splitting *)

Section Split.
  Variable orig : list (list nat).
  Let n := length orig.
  Definition sec (secs : list (list nat)) (i : nat) : list nat := nth i secs [].

  Lemma remove_sec : forall secs cur i start pos j x,
    In x (sec (remove_days secs cur i start pos) j) <->
    In x (sec secs j) /\ ~ (start <= i + j < pos /\ In x cur).
  Proof.
    induction secs as [| s r IH]; intros cur i start pos j x; cbn [remove_days].
    - unfold sec. destruct j; cbn; tauto.
    - destruct j as [| j]; unfold sec in *; cbn [nth].
      + rewrite Nat.add_0_r. destruct ((start <=? i) && (i <? pos)) eqn:E.
        * apply andb_true_iff in E. destruct E as [E1 E2].
          apply Nat.leb_le in E1. apply Nat.ltb_lt in E2. rewrite In_bminus. tauto.
        * apply andb_false_iff in E. split; [| tauto]. intros I. split; [exact I |].
          intros [L _]. destruct E as [E | E]; [apply Nat.leb_gt in E | apply Nat.ltb_ge in E]; lia.
      + rewrite IH. replace (S i + j) with (i + S j) by lia. reflexivity.
  Qed.

  Lemma remove_length : forall secs cur i start pos,
    length (remove_days secs cur i start pos) = length secs.
  Proof. induction secs; intros; cbn; [reflexivity | rewrite IHsecs; reflexivity]. Qed.

  (** what the scan returns *)
  Lemma scan_sound : forall secs rest b i0 i b' pos,
    rest = skipn i secs -> i0 < i -> i <= length secs ->
    (forall d, In d b -> forall j, i0 <= j < i -> In d (sec secs j)) ->
    split_scan rest b i = (b', pos) ->
    i0 < pos <= length secs /\ (forall d, In d b' -> In d b) /\
    (bnone b = false -> bnone b' = false) /\
    (forall d, In d b' -> forall j, i0 <= j < pos -> In d (sec secs j)) /\
    (pos < length secs -> forall d, In d b' -> ~ In d (sec secs pos)).
  Proof.
    intros secs. induction rest as [| s r IH]; intros b i0 i b' pos E L Li Inv S; cbn in S.
    - injection S as <- <-. assert (length secs <= i).
      { destruct (le_lt_dec (length secs) i) as [G | G]; [exact G |].
        assert (N : length (skipn i secs) = 0) by (rewrite <- E; reflexivity).
        rewrite skipn_length in N. lia. }
      repeat split; auto; try lia.
    - assert (Nb : nth i secs [] = s /\ skipn (Datatypes.S i) secs = r /\ i < length secs).
      { clear - E. revert secs E. induction i as [| i IHi]; intros [| a secs] E; try discriminate.
        - cbn in E. injection E as -> ->. cbn. repeat split; lia.
        - cbn [skipn] in E. destruct (IHi _ E) as [A [B C]]. cbn [nth length].
          repeat split; [exact A | exact B | lia]. }
      destruct Nb as [N1 [N2 N3]].
      destruct (bnone (band b s)) eqn:Z.
      + injection S as <- <-. split; [lia |]. split; [auto |]. split; [auto |]. split; [exact Inv |].
        intros _ d D C. unfold sec in C. rewrite N1 in C.
        rewrite bnone_true in Z. apply (Z d). apply In_band. split; assumption.
      + destruct (IH (band b s) i0 (Datatypes.S i) b' pos (eq_sym N2)) as [P1 [P2 [P3 [P4 P5]]]]; auto; try lia.
        { intros d D j J. apply In_band in D. destruct D as [D1 D2].
          destruct (Nat.eq_dec j i) as [-> | Ne]; [unfold sec; rewrite N1; exact D2 |].
          apply Inv; [exact D1 | lia]. }
        split; [exact P1 |]. split; [intros d D; apply P2 in D; apply In_band in D; tauto |].
        split; [auto |]. split; assumption.
  Qed.

  Definition runs (d i : nat) : Prop := In d (sec orig i).

  (** Invariant of the loop: pieces are right, disjoint, and their days are
      exactly the consumed ones. *)
  Record inv (x : xst) : Prop := {
    i_len : length (x_secs x) = n;
    i_sub : forall d i, In d (sec (x_secs x) i) -> runs d i;
    i_cons : forall d, In d (x_consumed x) <-> exists p, In p (x_out x) /\ In d (pc_days p);
    i_ok : forall p, In p (x_out x) ->
      pc_from p < pc_to p <= n /\ bnone (pc_days p) = false /\
      forall d i, In d (pc_days p) -> pc_from p <= i < pc_to p -> runs d i;
    i_disj : forall a b pa pb d, nth_error (x_out x) a = Some pa -> nth_error (x_out x) b = Some pb ->
      In d (pc_days pa) -> In d (pc_days pb) -> a = b
  }.

  Lemma inv_init : inv {| x_secs := orig; x_consumed := []; x_out := [] |}.
  Proof.
    constructor; cbn [x_secs x_consumed x_out].
    - reflexivity.
    - auto.
    - intros d. split; [intros [] | intros [p [[] _]]].
    - intros p [].
    - intros a b pa pb d A. destruct a; discriminate.
  Qed.

  Lemma inv_consume : forall x start pos cur x',
    inv x -> start < pos <= n -> bnone cur = false ->
    (forall d i, In d cur -> start <= i < pos -> runs d i) ->
    consume_and_remove x start pos cur = Some x' ->
    inv x' /\ x_secs x' = remove_days (x_secs x) cur 0 start pos /\
    x_out x' = x_out x ++ [{| pc_days := cur; pc_from := start; pc_to := pos |}].
  Proof.
    intros x start pos cur x' I L Nn R C. unfold consume_and_remove in C.
    rewrite Nn in C. cbn [negb] in C.
    assert (E : (start <? pos) = true) by (apply Nat.ltb_lt; lia).
    rewrite E in C. cbn [andb] in C.
    destruct (bnone (band cur (x_consumed x))) eqn:D; [| discriminate].
    injection C as <-. cbn [x_secs x_out]. split; [| auto].
    destruct I as [I1 I2 I3 I4 I5]. constructor; cbn [x_secs x_consumed x_out].
    - rewrite remove_length. exact I1.
    - intros d i H. apply remove_sec in H. apply I2. tauto.
    - intros d. rewrite in_app_iff, I3. split.
      + intros [H | [p [P1 P2]]].
        * eexists. split; [apply in_or_app; right; left; reflexivity | exact H].
        * exists p. split; [apply in_or_app; left; exact P1 | exact P2].
      + intros [p [P1 P2]]. apply in_app_or in P1. destruct P1 as [P1 | [<- | []]].
        * right. exists p. auto.
        * left. exact P2.
    - intros p P. apply in_app_or in P. destruct P as [P | [<- | []]]; [apply I4; exact P |].
      cbn [pc_from pc_to pc_days]. split; [exact L |]. split; [exact Nn | exact R].
    - assert (X : forall p d, In p (x_out x) -> In d (pc_days p) -> ~ In d cur).
      { intros p d P1 P2 Dc. rewrite bnone_true in D. apply (D d). apply In_band.
        split; [exact Dc |]. apply I3. exists p. auto. }
      intros a b pa pb d A B Da Db.
      destruct (lt_dec a (length (x_out x))) as [La | La];
        destruct (lt_dec b (length (x_out x))) as [Lb | Lb].
      + rewrite nth_error_app1 in A, B by assumption. apply (I5 a b pa pb d A B Da Db).
      + exfalso. rewrite nth_error_app1 in A by assumption. rewrite nth_error_app2 in B by lia.
        destruct (b - length (x_out x)) as [| k]; [| destruct k; discriminate].
        cbn in B. injection B as <-. apply (X pa d (nth_error_In _ _ A) Da Db).
      + exfalso. rewrite nth_error_app1 in B by assumption. rewrite nth_error_app2 in A by lia.
        destruct (a - length (x_out x)) as [| k]; [| destruct k; discriminate].
        cbn in A. injection A as <-. apply (X pb d (nth_error_In _ _ B) Db Da).
      + destruct (a - length (x_out x)) as [| k] eqn:Ea; [| rewrite nth_error_app2 in A by lia; rewrite Ea in A; destruct k; discriminate].
        destruct (b - length (x_out x)) as [| k] eqn:Eb; [| rewrite nth_error_app2 in B by lia; rewrite Eb in B; destruct k; discriminate].
        lia.
  Qed.

  Lemma step_scan : forall x i b pos,
    inv x -> i < n -> bnone (sec (x_secs x) i) = false ->
    split_scan (skipn (Datatypes.S i) (x_secs x)) (sec (x_secs x) i) (Datatypes.S i) = (b, pos) ->
    i < pos <= n /\ bnone b = false /\ (forall d, In d b -> In d (sec (x_secs x) i)) /\
    (forall d j, In d b -> i <= j < pos -> In d (sec (x_secs x) j)) /\
    (pos < n -> forall d, In d b -> ~ In d (sec (x_secs x) pos)).
  Proof.
    intros x i b pos I L Nn Sc.
    assert (A1 : i < Datatypes.S i) by lia.
    assert (A2 : Datatypes.S i <= length (x_secs x)) by (rewrite (i_len _ I); lia).
    assert (A3 : forall d, In d (sec (x_secs x) i) -> forall j, i <= j < Datatypes.S i -> In d (sec (x_secs x) j)).
    { intros d D j J. replace j with i by lia. exact D. }
    destruct (scan_sound (x_secs x) _ _ i _ _ _ eq_refl A1 A2 A3 Sc) as [P1 [P2 [P3 [P4 P5]]]].
    rewrite (i_len _ I) in P1, P5. split; [exact P1 |]. split; [apply P3; exact Nn |].
    split; [exact P2 |]. split; [intros d j D J; apply (P4 d D j J) | exact P5].
  Qed.

  Lemma loop_inv : forall is x out thrown,
    (forall i, In i is -> i < n) -> inv x ->
    expand_loop is x = (out, thrown) ->
    exists x', inv x' /\ x_out x' = out.
  Proof.
    induction is as [| i is IH]; intros x out thrown Li I E; cbn [expand_loop] in E.
    - injection E as <- <-. exists x. auto.
    - fold (sec (x_secs x) i) in E. destruct (bnone (sec (x_secs x) i)) eqn:Nn.
      { injection E as <- <-. exists x. auto. }
      destruct (split_scan (skipn (Datatypes.S i) (x_secs x)) (sec (x_secs x) i) (Datatypes.S i))
        as [b pos] eqn:Sc.
      assert (Lin : i < n) by (apply Li; left; reflexivity).
      destruct (step_scan x i b pos I Lin Nn Sc) as [P1 [P2 [P3 [P4 P5]]]].
      destruct (consume_and_remove x i pos b) as [x' |] eqn:C.
      + destruct (inv_consume x i pos b x' I P1 P2) as [I' _]; auto.
        { intros d j D J. apply (i_sub _ I). apply P4; assumption. }
        apply (IH x' out thrown); auto. intros j J. apply Li. right. exact J.
      + injection E as <- <-. exists x. auto.
  Qed.

  (** ** Exactness *)
  Hypothesis contiguous : forall d i j k, runs d i -> runs d k -> i <= j <= k -> runs d j.
  Definition begins (d i : nat) : Prop := runs d i /\ forall j, j < i -> ~ runs d j.
  Hypothesis same_end : forall d d' i k, begins d i -> begins d' i -> runs d k -> runs d' k.

  (** at step [i] exactly the days that begin at [i] or later are left *)
  Definition left_over (x : xst) (i : nat) : Prop :=
    forall d j, In d (sec (x_secs x) j) <-> runs d j /\ forall k, k < i -> ~ runs d k.

  Lemma scan_exact : forall secs rest b i b' pos,
    rest = skipn i secs ->
    (forall d d' k, In d b -> In d' b -> i <= k -> In d (sec secs k) -> In d' (sec secs k)) ->
    split_scan rest b i = (b', pos) -> forall d, In d b <-> In d b'.
  Proof.
    intros secs. induction rest as [| s r IH]; intros b i b' pos E Un Sc d; cbn in Sc.
    - injection Sc as <- <-. reflexivity.
    - assert (Nb : nth i secs [] = s /\ skipn (Datatypes.S i) secs = r).
      { clear - E. revert secs E. induction i as [| i IHi]; intros [| a secs] E; try discriminate.
        - cbn in E. injection E as -> ->. cbn. split; reflexivity.
        - cbn [skipn] in E. destruct (IHi _ E) as [A B]. cbn [nth]. split; [exact A | exact B]. }
      destruct Nb as [N1 N2].
      destruct (bnone (band b s)) eqn:Z.
      + injection Sc as <- <-. reflexivity.
      + apply bnone_false in Z. destruct Z as [w W]. apply In_band in W. destruct W as [W1 W2].
        assert (EqS : forall y, In y b <-> In y (band b s)).
        { intros y. rewrite In_band. split; [| tauto]. intros Y. split; [exact Y |].
          rewrite <- N1. fold (sec secs i). apply (Un w y i W1 Y (le_n _)).
          unfold sec. rewrite N1. exact W2. }
        rewrite EqS. apply (IH (band b s) (Datatypes.S i) b' pos (eq_sym N2)); [| exact Sc].
        intros y y' k Y Y' K. apply EqS in Y. apply EqS in Y'. apply Un; auto. lia.
  Qed.

  Lemma loop_exact : forall len i x out thrown,
    i + len = n -> inv x -> left_over x i ->
    (forall d p, In p (x_out x) -> In d (pc_days p) ->
       begins d (pc_from p) /\ pc_from p < i /\ (forall k, runs d k -> pc_from p <= k < pc_to p)) ->
    (forall d k, begins d k -> k < i -> exists p, In p (x_out x) /\ In d (pc_days p)) ->
    expand_loop (seq i len) x = (out, thrown) ->
    thrown = false /\
    (forall d p, In p out -> In d (pc_days p) ->
       begins d (pc_from p) /\ (forall k, runs d k -> pc_from p <= k < pc_to p)) /\
    (forall d k, begins d k ->
       ((exists p, In p out /\ In d (pc_days p)) <->
        (forall j, i <= j <= k -> exists d', begins d' j))).
  Proof.
    induction len as [| len IH]; intros i x out thrown Hn I Lo Ho Hc E; cbn [seq expand_loop] in E.
    - injection E as <- <-. split; [reflexivity |]. split.
      { intros d p P D. destruct (Ho d p P D) as [A [_ B]]. split; assumption. }
      intros d k B.
      assert (K : k < n).
      { destruct B as [B _]. unfold runs, sec in B. destruct (lt_dec k n) as [L | L]; [exact L |].
        rewrite nth_overflow in B by (fold n; lia). destruct B. }
      split; [intros _ j J; lia |]. intros _. apply (Hc d k B). lia.
    - fold (sec (x_secs x) i) in E. destruct (bnone (sec (x_secs x) i)) eqn:Nn.
      { injection E as <- <-. split; [reflexivity |]. split.
        { intros d p P D. destruct (Ho d p P D) as [A [_ B]]. split; assumption. }
        assert (No : forall d, ~ begins d i).
        { intros d [R F]. rewrite bnone_true in Nn. apply (Nn d). apply Lo. split; assumption. }
        intros d k B. split.
        - intros [p [P D]] j J. destruct (Ho d p P D) as [B2 [L _]].
          assert (pc_from p = k).
          { destruct B as [R F], B2 as [R2 F2].
            destruct (lt_eq_lt_dec (pc_from p) k) as [[G | G] | G]; [| exact G |].
            - exfalso. apply (F _ G R2).
            - exfalso. apply (F2 _ G R). }
          lia.
        - intros H. destruct (le_lt_dec i k) as [G | G].
          + destruct (H i) as [d' B']; [lia |]. exfalso. apply (No d' B').
          + apply (Hc d k B G). }
      destruct (split_scan (skipn (Datatypes.S i) (x_secs x)) (sec (x_secs x) i) (Datatypes.S i))
        as [b pos] eqn:Sc.
      assert (Lin : i < n) by lia.
      destruct (step_scan x i b pos I Lin Nn Sc) as [P1 [P2 [P3 [P4 P5]]]].
      assert (Beg : forall d, In d (sec (x_secs x) i) <-> begins d i).
      { intros d. rewrite (Lo d i). reflexivity. }
      assert (Eb : forall d, In d b <-> begins d i).
      { intros d. rewrite <- Beg.
        symmetry. apply (scan_exact (x_secs x) _ _ _ _ _ eq_refl) with (2 := Sc).
        intros y y' k Y Y' K R. apply Beg in Y. apply Beg in Y'. apply Lo in R. apply Lo.
        destruct R as [R1 R2]. split; [apply (same_end y y' i k Y Y' R1) |].
        intros j J. apply (proj2 Y' j J). }
      assert (En : forall d k, begins d i -> runs d k -> i <= k < pos).
      { intros d k B R. destruct B as [B F]. split.
        - destruct (le_lt_dec i k) as [G | G]; [exact G |]. exfalso. apply (F k G R).
        - destruct (lt_dec k pos) as [G | G]; [exact G |]. exfalso.
          assert (Kn : k < n).
          { unfold runs, sec in R. destruct (lt_dec k n) as [L | L]; [exact L |].
            rewrite nth_overflow in R by (fold n; lia). destruct R. }
          assert (Rp : runs d pos) by (apply (contiguous d i pos k B R); lia).
          apply (P5 ltac:(lia) d); [apply Eb; split; assumption |]. apply Lo. split; [exact Rp | exact F]. }
      destruct (consume_and_remove x i pos b) as [x' |] eqn:C.
      + destruct (inv_consume x i pos b x' I P1 P2) as [I' [X1 X2]]; auto.
        { intros d j D J. apply (i_sub _ I). apply P4; assumption. }
        assert (Lo' : left_over x' (Datatypes.S i)).
        { intros d j. rewrite X1, remove_sec, (Lo d j). cbn [Nat.add]. split.
          - intros [[R F] N]. split; [exact R |]. intros k K Rk.
            destruct (Nat.eq_dec k i) as [-> | Ne]; [| apply (F k); [lia | exact Rk]].
            assert (Bd : begins d i) by (split; [exact Rk | exact F]).
            apply N. split; [apply (En d j Bd R) | apply Eb; exact Bd].
          - intros [R F]. split; [split; [exact R |]; intros k K; apply F; lia |].
            intros [_ Db]. apply Eb in Db. apply (F i); [lia | apply (proj1 Db)]. }
        destruct (IH (Datatypes.S i) x' out thrown) as [T [A1 A2]]; auto; try lia.
        { intros d p P D. rewrite X2 in P. apply in_app_or in P. destruct P as [P | [<- | []]].
          - destruct (Ho d p P D) as [Q1 [Q2 Q3]]. split; [exact Q1 |]. split; [lia | exact Q3].
          - cbn [pc_from pc_to pc_days] in *. apply Eb in D. split; [exact D |]. split; [lia |].
            intros k R. apply (En d k D R). }
        { intros d k B K. rewrite X2. destruct (Nat.eq_dec k i) as [-> | Ne].
          - eexists. split; [apply in_or_app; right; left; reflexivity |]. apply Eb. exact B.
          - destruct (Hc d k B) as [p [Q1 Q2]]; [lia |]. exists p. split; [apply in_or_app; left; exact Q1 | exact Q2]. }
        split; [exact T |]. split; [exact A1 |]. intros d k B. rewrite (A2 d k B). split.
        * intros H j J. destruct (Nat.eq_dec j i) as [-> | Ne]; [| apply H; lia].
          apply bnone_false in Nn. destruct Nn as [w W]. exists w. apply Beg. exact W.
        * intros H j J. apply H. lia.
      + exfalso. unfold consume_and_remove in C. rewrite P2 in C. cbn [negb andb] in C.
        assert (E2 : (i <? pos) = true) by (apply Nat.ltb_lt; lia). rewrite E2 in C.
        destruct (bnone (band b (x_consumed x))) eqn:D; [discriminate |].
        apply bnone_false in D. destruct D as [d D]. apply In_band in D. destruct D as [D1 D2].
        apply (i_cons _ I) in D2. destruct D2 as [p [Q1 Q2]].
        destruct (Ho d p Q1 Q2) as [Q3 [Q4 _]]. apply Eb in D1.
        apply (proj2 D1 _ Q4). apply (proj1 Q3).
  Qed.

  Lemma expand_exact : forall out thrown,
    expand_traffic_days orig = (out, thrown) ->
    thrown = false /\
    (forall d p, In p out -> In d (pc_days p) ->
       begins d (pc_from p) /\ (forall k, runs d k -> pc_from p <= k < pc_to p)) /\
    (forall d k, begins d k ->
       ((exists p, In p out /\ In d (pc_days p)) <->
        (forall j, j <= k -> exists d', begins d' j))).
  Proof.
    intros out thrown E.
    destruct (loop_exact (length orig) 0 _ out thrown eq_refl inv_init) with (4 := E) as [A [B C]].
    - intros d j. cbn [x_secs]. split; [| tauto]. intros H. split; [exact H | intros k K; lia].
    - intros d p []. 
    - intros d k _ K. lia.
    - split; [exact A |]. split; [exact B |]. intros d k Bg. rewrite (C d k Bg). split.
      + intros H j J. apply H. lia.
      + intros H j J. apply H. lia.
  Qed.
End Split.

Lemma expand_inv : forall orig out thrown,
  expand_traffic_days orig = (out, thrown) ->
  exists x, inv orig x /\ x_out x = out.
Proof.
  intros orig out thrown E. apply (loop_inv orig (seq 0 (length orig)) _ out thrown) in E.
  - exact E.
  - intros i Hi. apply in_seq in Hi. lia.
  - apply inv_init.
Qed.
