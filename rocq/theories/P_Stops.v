(** C74: stops and transfers of a GTFS feed. *)
From Coq Require Import List ZArith Lia Bool Arith Permutation.
From Verif Require Import Base Time_Model Stops_Model.
Import ListNotations.
Local Open Scope Z_scope.

(** * Specification *)
Definition LastOf {A} (P : A -> Prop) (l : list A) (r : A) : Prop := exists pre post, l = pre ++ r :: post /\ P r /\ forall x, In x post -> ~ P x.
Definition FirstOf {A} (P : A -> Prop) (l : list A) (r : A) : Prop := exists pre post, l = pre ++ r :: post /\ P r /\ forall x, In x pre -> ~ P x.
Section Spec.
  Variable near_origin : nat -> bool.
  Variable in_radius : nat -> nat -> bool.
  Variable dist2 : nat -> nat -> Z.
  Variable walk : nat -> nat -> Z.
  Variable rows : list srow.
  Variable trows : list trow.
  (** Rows of stop [x]; entrances (2) and generic nodes (3) are not stops. *)
  Definition RowOf (x : nat) (r : srow) : Prop := r_type r <> 2%nat /\ r_type r <> 3%nat /\ r_id r = x.
  Definition IsStop (x : nat) : Prop := exists r y, In r rows /\ RowOf y r /\ (y = x \/ r_parent r = Some x).
  (** Name and place: of the last row; a parent without a row has no name and is at (0, 0). *)
  Inductive Attr (x n c : nat) : Prop :=
  | At_row r : LastOf (RowOf x) rows r -> n = r_name r -> c = r_coord r -> Attr x n c
  | At_none : (forall r, In r rows -> ~ RowOf x r) -> n = O -> c = O -> Attr x n c.
  Definition At (x c : nat) : Prop := exists n, Attr x n c.
  (** Parent: of the last row that gives one; children: all that ever gave it as parent. *)
  Definition Parent (x p : nat) : Prop := exists r, LastOf (fun r => RowOf x r /\ r_parent r <> None) rows r /\ r_parent r = Some p.
  Definition Child (c p : nat) : Prop := exists r, In r rows /\ RowOf c r /\ r_parent r = Some p.
  Definition SameName (s x : nat) : Prop := x <> s /\ exists n c r, n <> O /\ Attr s n c /\ In r rows /\ RowOf x r /\ r_name r = n.
  Definition CloseTo (s x : nat) : Prop := IsStop x /\ exists cs cx, At s cs /\ At x cx /\ near_origin cs = false /\ in_radius cs cx = true.
  (** The stops connected by parents and children with [s], its namesakes and its neighbours. *)
  Inductive Linked (s : nat) : nat -> Prop :=
  | L_self : Linked s s
  | L_name x : SameName s x -> Linked s x
  | L_close x : CloseTo s x -> Linked s x
  | L_parent x p : Linked s x -> Parent x p -> Linked s p
  | L_child x c : Linked s x -> Child c x -> Linked s c.
  (** At most 500 metres away, the own parent and children at most 2 kilometres. *)
  Definition Reach (s x : nat) : Prop :=
    exists cs cx, At s cs /\ At x cx /\ dist2 cs cx <= 2000 * 2000 /\ (dist2 cs cx <= 500 * 500 \/ Parent s x \/ Child x s).
  Definition Meta (s x : nat) : Prop := (Linked s x /\ Reach s x) \/ exists d, Linked s d /\ Reach s d /\ Child x d.
  Definition Near (s x : nat) (m : Z) : Prop := IsStop s /\ Meta s x /\ (exists cs cx, At s cs /\ At x cx /\ m = walk cs cx) /\ m <= 511.
  (** transfers.txt: neither impossible (3) nor stay-seated (4) *)
  Definition Row (a b : nat) (r : trow) : Prop := t_from r = a /\ t_to r = b /\ t_type r <> 3 /\ t_type r <> 4.
  Definition Given (a b : nat) (d : Z) : Prop :=
    a <> b /\ IsStop a /\ IsStop b /\ exists r, FirstOf (Row a b) trows r /\ d = Z.min 511 (t_time r / 60).
  (** The footpath from [a] to [b]: given, given in the other direction, or a walk between stops that are near. *)
  Inductive Foot (a b : nat) (d : Z) : Prop :=
  | F_given : Given a b d -> Foot a b d
  | F_back : (forall d', ~ Given a b d') -> Given b a d -> Foot a b d
  | F_near : (forall d', ~ Given a b d') -> (forall d', ~ Given b a d') -> Near a b d \/ Near b a d -> Foot a b d.
End Spec.
Definition TRange (r : trow) : Prop := 0 <= t_type r < 256 /\ 0 <= t_time r < 32768 * 60.

(** * Proofs *)
Lemma sset_same {A} (f : nat -> A) k v : sset f k v k = v.
Proof. unfold sset. now rewrite Nat.eqb_refl. Qed.
Lemma sset_other {A} (f : nat -> A) k v x : x <> k -> sset f k v x = f x.
Proof. intros N. unfold sset. destruct (Nat.eqb_spec x k); [contradiction|reflexivity]. Qed.
Lemma smem_in x l : smem x l = true <-> In x l.
Proof. unfold smem. rewrite existsb_exists. split; [intros (y & I & E); apply Nat.eqb_eq in E; now subst|intros I; exists x; split; [exact I|apply Nat.eqb_refl]]. Qed.
Lemma sadd_in x y l : In y (sadd x l) <-> In y l \/ y = x.
Proof.
  unfold sadd. destruct (smem x l) eqn:E; [|rewrite in_app_iff; cbn [In]; intuition congruence].
  apply smem_in in E. split; [auto|intros [H|H]; [exact H|now subst]].
Qed.
Lemma NoDup_snoc {A} (l : list A) x : NoDup l -> ~ In x l -> NoDup (l ++ [x]).
Proof. intros ND N. rewrite <- (rev_involutive (l ++ [x])). apply NoDup_rev. rewrite rev_app_distr. cbn. constructor; [now rewrite <- in_rev|]. now apply NoDup_rev. Qed.
Lemma sadd_nodup x l : NoDup l -> NoDup (sadd x l).
Proof. unfold sadd. destruct (smem x l) eqn:E; [auto|]. intros ND. apply NoDup_snoc; [exact ND|]. intros I. apply smem_in in I. congruence. Qed.
Lemma last_unique {A} (P : A -> Prop) l r r' : LastOf P l r -> LastOf P l r' -> r = r'.
Proof.
  intros (pre & post & E & H & N) (pre' & post' & E' & H' & N'). revert pre' E'. subst l. induction pre as [|a pre IH]; intros [|a' pre'] E'; cbn [app] in E'.
  - now injection E'.
  - injection E' as -> E'. exfalso. apply (N r'); [rewrite E'; apply in_or_app; right; now left|exact H'].
  - injection E' as -> E'. exfalso. apply (N' r); [rewrite <- E'; apply in_or_app; right; now left|exact H].
  - injection E' as -> E'. now apply IH in E'.
Qed.
Lemma last_snoc {A} (P : A -> Prop) l x r : LastOf P (l ++ [x]) r <-> (P x /\ r = x) \/ (~ P x /\ LastOf P l r).
Proof.
  split.
  - intros (pre & post & E & H & N). destruct (exists_last (l := r :: post)) as (m & y & EM); [discriminate|].
    assert (X : l ++ [x] = (pre ++ m) ++ [y]) by (rewrite <- app_assoc, <- EM; exact E). apply app_inj_tail in X. destruct X as (-> & ->).
    destruct m as [|z m]; cbn [app] in EM; injection EM as -> EM; [left; auto|]. right. subst post. split; [apply N; apply in_or_app; right; now left|].
    exists pre, m. split; [reflexivity|]. split; [exact H|]. intros w I. apply N. apply in_or_app. now left.
  - intros [(H & ->)|(NH & pre & post & -> & H & N)].
    + exists l, []. split; [reflexivity|]. split; [exact H|intros z []].
    + exists pre, (post ++ [x]). split; [now rewrite <- app_assoc|]. split; [exact H|]. intros w I. apply in_app_or in I. destruct I as [I|[<-|[]]]; auto.
Qed.
Lemma last_none {A} (P : A -> Prop) r : ~ LastOf P [] r.
Proof. intros (pre & post & E & _). destruct pre; discriminate. Qed.

Section Rows.
  Definition used (r : srow) : Prop := r_type r <> 2%nat /\ r_type r <> 3%nat.
  Lemma used_dec r : (Nat.eqb (r_type r) 2 || Nat.eqb (r_type r) 3 = true /\ ~ used r) \/ (Nat.eqb (r_type r) 2 || Nat.eqb (r_type r) 3 = false /\ used r).
  Proof. unfold used. destruct (Nat.eqb_spec (r_type r) 2), (Nat.eqb_spec (r_type r) 3); cbn; tauto. Qed.
  (** Parts of the state after one row. *)
  Lemma add_unused st r : ~ used r -> add_row st r = st.
  Proof. intros N. unfold add_row. destruct (used_dec r) as [(-> & _)|(_ & U)]; [reflexivity|contradiction]. Qed.
  Lemma add_keys st r : used r -> forall x, In x (st_keys (add_row st r)) <-> In x (st_keys st) \/ x = r_id r \/ r_parent r = Some x.
  Proof.
    intros U x. unfold add_row. destruct (used_dec r) as [(_ & N)|(-> & _)]; [contradiction|]. cbv zeta. unfold row_name, row_parent, row_stop.
    destruct (Nat.eqb (r_name r) 0); destruct (r_parent r) as [p|]; cbn [st_keys]; rewrite !sadd_in; intuition congruence.
  Qed.
  Lemma add_keys_nodup st r : NoDup (st_keys st) -> NoDup (st_keys (add_row st r)).
  Proof.
    intros ND. unfold add_row. destruct (_ || _); [exact ND|]. cbv zeta. unfold row_name, row_parent, row_stop.
    destruct (Nat.eqb (r_name r) 0); destruct (r_parent r) as [p|]; cbn [st_keys]; repeat apply sadd_nodup; exact ND.
  Qed.
  Lemma add_names st r : used r -> forall n x, In x (st_names (add_row st r) n) <-> In x (st_names st n) \/ (x = r_id r /\ n = r_name r /\ n <> O).
  Proof.
    intros U n x. unfold add_row. destruct (used_dec r) as [(_ & N)|(-> & _)]; [contradiction|]. cbv zeta. unfold row_name.
    assert (E : forall p, st_names (match p with Some p => row_parent (row_stop st r) (r_id r) p | None => row_stop st r end) = st_names st) by (intros [p|]; reflexivity).
    destruct (Nat.eqb_spec (r_name r) 0) as [Z0|NZ]; rewrite ?E; cbn [st_names]; [split; [auto|intros [H|(_ & -> & H)]; [exact H|contradiction]]|].
    destruct (Nat.eq_dec n (r_name r)) as [->|N].
    - rewrite sset_same, in_app_iff. cbn [In]. intuition congruence.
    - rewrite sset_other by exact N. intuition congruence.
  Qed.
  Lemma get_name st id n : st_get (row_name st id n) = st_get st.
  Proof. unfold row_name. destruct (Nat.eqb n 0); reflexivity. Qed.
  Lemma add_attr st r x : used r -> g_name (st_get (add_row st r) x) = (if Nat.eqb x (r_id r) then r_name r else g_name (st_get st x)) /\
    g_coord (st_get (add_row st r) x) = (if Nat.eqb x (r_id r) then r_coord r else g_coord (st_get st x)).
  Proof.
    intros U. unfold add_row. destruct (used_dec r) as [(_ & N)|(-> & _)]; [contradiction|]. cbv zeta. rewrite get_name. unfold row_parent, row_stop.
    destruct (r_parent r) as [p|]; cbn [st_get]; unfold sset; rewrite ?Nat.eqb_refl;
      repeat match goal with |- context [Nat.eqb ?a ?b] => destruct (Nat.eqb_spec a b); subst end; cbn [g_name g_coord]; try congruence; split; congruence.
  Qed.
  Lemma add_parent st r x : used r -> g_parent (st_get (add_row st r) x) = (if Nat.eqb x (r_id r) then match r_parent r with Some p => Some p | None => g_parent (st_get st x) end else g_parent (st_get st x)).
  Proof.
    intros U. unfold add_row. destruct (used_dec r) as [(_ & N)|(-> & _)]; [contradiction|]. cbv zeta. rewrite get_name. unfold row_parent, row_stop.
    destruct (r_parent r) as [p|]; cbn [st_get]; unfold sset; destruct (Nat.eqb_spec x (r_id r)) as [->|N]; cbn [g_parent]; try reflexivity.
    destruct (Nat.eqb_spec x p) as [->|N3]; cbn [g_parent]; [|reflexivity]. destruct (Nat.eqb_spec p (r_id r)); [contradiction|reflexivity].
  Qed.
  Lemma add_children st r x : used r -> forall c, In c (g_children (st_get (add_row st r) x)) <-> In c (g_children (st_get st x)) \/ (c = r_id r /\ r_parent r = Some x).
  Proof.
    intros U c. unfold add_row. destruct (used_dec r) as [(_ & N)|(-> & _)]; [contradiction|]. cbv zeta. rewrite get_name. unfold row_parent, row_stop.
    destruct (r_parent r) as [p|]; cbn [st_get]; unfold sset; rewrite ?Nat.eqb_refl;
      repeat match goal with |- context [Nat.eqb ?a ?b] => destruct (Nat.eqb_spec a b); subst end; cbn [g_children]; rewrite ?sadd_in; try congruence; intuition congruence.
  Qed.
  Section Inv.
    Variable rows : list srow.
    Let st := read_rows rows.
    Record RowInv (rows : list srow) (st : stops) : Prop := {
      ri_keys : forall x, In x (st_keys st) <-> IsStop rows x;
      ri_nodup : NoDup (st_keys st);
      ri_attr : forall x n c, Attr rows x n c <-> n = g_name (st_get st x) /\ c = g_coord (st_get st x);
      ri_parent : forall x p, Parent rows x p <-> g_parent (st_get st x) = Some p;
      ri_children : forall x c, In c (g_children (st_get st x)) <-> Child rows c x;
      ri_names : forall n x, In x (st_names st n) <-> n <> O /\ exists r, In r rows /\ RowOf x r /\ r_name r = n }.
  End Inv.
  Lemma rowof_used x r : RowOf x r <-> used r /\ r_id r = x.
  Proof. unfold RowOf, used. tauto. Qed.
  Lemma read_rows_inv rows : RowInv rows (read_rows rows).
  Proof.
    induction rows as [|r rows IH] using rev_ind.
    - constructor; cbn.
      + intros x. split; [intros []|intros (r & _ & [] & _)].
      + constructor.
      + intros x n c. split; [intros [r L|_ -> ->]; [now apply last_none in L|auto]|intros (-> & ->); apply At_none; auto; intros r []].
      + intros x p. split; [intros (r & L & _); now apply last_none in L|discriminate].
      + intros x c. split; [intros []|intros (r & [] & _)].
      + intros n x. split; [intros []|intros (_ & r & [] & _)].
    - unfold read_rows in *. rewrite fold_left_app. cbn [fold_left]. set (st := fold_left add_row rows no_stops) in *.
      destruct (used_dec r) as [(_ & NU)|(_ & U)].
      + rewrite add_unused by exact NU. assert (NR : forall x, ~ RowOf x r) by (intros x R; apply rowof_used in R; tauto). destruct IH as [A B C D E F].
        constructor.
        * intros x. rewrite A. unfold IsStop. split; intros (r' & y & I & R & X); exists r', y; (split; [|auto]); [apply in_or_app; now left|]. apply in_app_or in I. destruct I as [I|[<-|[]]]; [exact I|now apply NR in R].
        * exact B.
        * intros x n c. rewrite <- C. split; (intros [r' L E1 E2|N E1 E2]; [apply At_row with r'; auto|apply At_none; auto]).
          -- apply last_snoc in L. destruct L as [(L & _)|(_ & L)]; [now apply NR in L|exact L].
          -- intros r' I. apply N. apply in_or_app. now left.
          -- apply last_snoc. right. auto.
          -- intros r' I. apply in_app_or in I. destruct I as [I|[<-|[]]]; auto.
        * intros x p. rewrite <- D. unfold Parent. split; intros (r' & L & X); exists r'; (split; [|exact X]).
          -- apply last_snoc in L. destruct L as [((L & _) & _)|(_ & L)]; [now apply NR in L|exact L].
          -- apply last_snoc. right. split; [intros (R & _); now apply NR in R|exact L].
        * intros x c. rewrite E. unfold Child. split; intros (r' & I & R & X); exists r'; (split; [|auto]); [apply in_or_app; now left|]. apply in_app_or in I. destruct I as [I|[<-|[]]]; [exact I|now apply NR in R].
        * intros n x. rewrite F. split; intros (NZ & r' & I & R & X); (split; [exact NZ|]); exists r'; (split; [|auto]); [apply in_or_app; now left|]. apply in_app_or in I. destruct I as [I|[<-|[]]]; [exact I|now apply NR in R].
      + destruct IH as [A B C D E F]. constructor.
        * intros x. rewrite add_keys by exact U. rewrite A. unfold IsStop. split.
          -- intros [(r' & y & I & X)|H]; [exists r', y; split; [apply in_or_app; now left|exact X]|]. exists r, (r_id r). split; [apply in_or_app; right; now left|]. split; [apply rowof_used; auto|]. destruct H as [->|H]; auto.
          -- intros (r' & y & I & R & X). apply in_app_or in I. destruct I as [I|[<-|[]]]; [left; eauto|]. apply rowof_used in R. destruct R as (_ & R). right. destruct X as [<-|X]; [left; congruence|auto].
        * now apply add_keys_nodup.
        * intros x n c. destruct (add_attr st r x U) as (-> & ->). destruct (Nat.eqb_spec x (r_id r)) as [->|N].
          -- assert (R : RowOf (r_id r) r) by (apply rowof_used; auto). split.
             ++ intros [r' L -> ->|H _ _]; [|exfalso; apply (H r); [apply in_or_app; right; now left|exact R]]. apply last_snoc in L. destruct L as [(_ & ->)|(L & _)]; [auto|contradiction].
             ++ intros (-> & ->). apply At_row with r; auto. apply last_snoc. auto.
          -- assert (NR : ~ RowOf x r) by (intros R; apply rowof_used in R; destruct R; congruence). rewrite <- C. split; (intros [r' L E1 E2|H E1 E2]; [apply At_row with r'; auto|apply At_none; auto]).
             ++ apply last_snoc in L. destruct L as [(L & _)|(_ & L)]; [contradiction|exact L].
             ++ intros r' I. apply H. apply in_or_app. now left.
             ++ apply last_snoc. right. auto.
             ++ intros r' I. apply in_app_or in I. destruct I as [I|[<-|[]]]; auto.
        * intros x p. rewrite add_parent by exact U. destruct (Nat.eqb_spec x (r_id r)) as [->|N].
          -- assert (R : RowOf (r_id r) r) by (apply rowof_used; auto). destruct (r_parent r) as [p0|] eqn:EP.
             ++ split.
                ** intros (r' & L & X). apply last_snoc in L. destruct L as [(_ & ->)|(L & _)]; [congruence|]. exfalso. apply L. split; [exact R|congruence].
                ** intros [= <-]. exists r. split; [|exact EP]. apply last_snoc. left. split; [split; [exact R|congruence]|reflexivity].
             ++ rewrite <- D. split; intros (r' & L & X); exists r'; (split; [|exact X]).
                ** apply last_snoc in L. destruct L as [((_ & L) & _)|(_ & L)]; [congruence|exact L].
                ** apply last_snoc. right. split; [intros (_ & K); congruence|exact L].
          -- assert (NR : ~ RowOf x r) by (intros R; apply rowof_used in R; destruct R; congruence). rewrite <- D. split; intros (r' & L & X); exists r'; (split; [|exact X]).
             ++ apply last_snoc in L. destruct L as [((L & _) & _)|(_ & L)]; [contradiction|exact L].
             ++ apply last_snoc. right. split; [intros (K & _); contradiction|exact L].
        * intros x c. rewrite add_children by exact U. rewrite E. unfold Child. split.
          -- intros [(r' & I & X)|(-> & X)]; [exists r'; split; [apply in_or_app; now left|exact X]|]. exists r. split; [apply in_or_app; right; now left|]. split; [apply rowof_used; auto|exact X].
          -- intros (r' & I & R & X). apply in_app_or in I. destruct I as [I|[<-|[]]]; [left; eauto|]. apply rowof_used in R. destruct R as (_ & R). right. auto.
        * intros n x. rewrite add_names by exact U. rewrite F. split.
          -- intros [(NZ & r' & I & X)|(-> & -> & NZ)]; (split; [exact NZ|]); [exists r'; split; [apply in_or_app; now left|exact X]|]. exists r. split; [apply in_or_app; right; now left|]. split; [apply rowof_used; auto|reflexivity].
          -- intros (NZ & r' & I & R & X). apply in_app_or in I. destruct I as [I|[<-|[]]]; [left; eauto|]. apply rowof_used in R. destruct R as (_ & <-). right. auto.
  Qed.
End Rows.
Section Metas.
  Variable near_origin : nat -> bool.
  Variable in_radius : nat -> nat -> bool.
  Variable dist2 : nat -> nat -> Z.
  Variable rows : list srow.
  Let st := read_rows rows.
  Let RI : RowInv rows st := read_rows_inv rows.
  Lemma at_iff x c : At rows x c <-> c = g_coord (st_get st x).
  Proof. unfold At. split; [intros (n & A); apply (ri_attr _ _ RI) in A; tauto|intros ->; eexists; apply (ri_attr _ _ RI); split; reflexivity]. Qed.
  Lemma same_name_spec s x : In x (same_name st s) <-> SameName rows s x.
  Proof.
    unfold same_name, SameName. destruct (Nat.eqb_spec (g_name (st_get st s)) 0) as [Z0|NZ].
    - split; [intros []|]. intros (_ & n & c & r & N & A & _). apply (ri_attr _ _ RI) in A. destruct A. congruence.
    - rewrite filter_In. rewrite (ri_names _ _ RI), negb_true_iff, Nat.eqb_neq. split.
      + intros ((_ & r & I & R & E) & N). split; [exact N|]. exists (g_name (st_get st s)), (g_coord (st_get st s)), r. split; [exact NZ|]. split; [now apply (ri_attr _ _ RI)|auto].
      + intros (N & n & c & r & Hn & A & I & R & E). apply (ri_attr _ _ RI) in A. destruct A as (-> & _). split; [|exact N]. split; [exact NZ|]. eauto.
  Qed.
  Lemma close_spec s x : In x (close_stops near_origin in_radius st s) <-> CloseTo near_origin in_radius rows s x.
  Proof.
    unfold close_stops, CloseTo. split.
    - destruct (near_origin _) eqn:EN; [intros []|]. rewrite filter_In, (ri_keys _ _ RI). intros (I & R). split; [exact I|]. do 2 eexists. split; [now apply at_iff|]. split; [now apply at_iff|]. auto.
    - intros (I & cs & cx & A & B & N & R). apply at_iff in A. apply at_iff in B. subst cs cx. rewrite N. apply filter_In. split; [now apply (ri_keys _ _ RI)|exact R].
  Qed.
  Lemma parent_stop x p : g_parent (st_get st x) = Some p -> In p (st_keys st).
  Proof.
    intros H. apply (ri_parent _ _ RI) in H. destruct H as (r & (pre & post & E & (R & _) & _) & P). apply (ri_keys _ _ RI).
    exists r, x. split; [rewrite E; apply in_or_app; right; now left|]. auto.
  Qed.
  Lemma child_stop x c : In c (g_children (st_get st x)) -> In c (st_keys st).
  Proof. intros H. apply (ri_children _ _ RI) in H. destruct H as (r & I & R & P). apply (ri_keys _ _ RI). exists r, c. auto. Qed.
  Lemma todo_add_in done todo x y : In y (todo_add done todo x) <-> In y todo \/ (y = x /\ ~ In x done).
  Proof.
    unfold todo_add. destruct (smem x done) eqn:E; [apply smem_in in E; tauto|]. rewrite sadd_in. assert (N : ~ In x done) by (intros I; apply smem_in in I; congruence). tauto.
  Qed.
  Lemma todo_adds_in done : forall xs todo y, In y (fold_left (todo_add done) xs todo) <-> In y todo \/ (In y xs /\ ~ In y done).
  Proof.
    induction xs as [|x xs IH]; intros todo y; cbn [fold_left]; [cbn [In]; tauto|]. rewrite IH, todo_add_in. cbn [In]. split.
    - intros [[H|(-> & N)]|(H & N)]; auto.
    - intros [H|([->|H] & N)]; auto.
  Qed.
  Lemma todo_add_nodup done todo x : NoDup todo -> NoDup (todo_add done todo x).
  Proof. unfold todo_add. destruct (smem x done); [auto|apply sadd_nodup]. Qed.
  Lemma todo_adds_nodup done : forall xs todo, NoDup todo -> NoDup (fold_left (todo_add done) xs todo).
  Proof. induction xs as [|x xs IH]; intros todo ND; cbn [fold_left]; [exact ND|]. apply IH. now apply todo_add_nodup. Qed.
  Lemma nodup_app_iff (l m : list nat) : NoDup l -> NoDup m -> (forall x, In x l -> ~ In x m) -> NoDup (l ++ m).
  Proof.
    induction l as [|a l IH]; intros A B D; [exact B|]. inversion A; subst. cbn [app]. constructor; [|apply IH; auto; intros x I; apply D; now right].
    rewrite in_app_iff. intros [I|I]; [contradiction|]. now apply (D a (or_introl eq_refl)) in I.
  Qed.
  Definition nexts (x y : nat) : Prop := g_parent (st_get st x) = Some y \/ In y (g_children (st_get st x)).
  Lemma closure_spec (P : nat -> Prop) : (forall x y, P x -> nexts x y -> P y) ->
    forall fuel todo done, NoDup todo -> NoDup done -> (forall x, In x todo -> ~ In x done) -> incl todo (st_keys st) -> incl done (st_keys st) ->
    (length (st_keys st) <= fuel + length done)%nat -> (forall x y, In x done -> nexts x y -> In y todo \/ In y done) ->
    (forall x, In x todo \/ In x done -> P x) ->
    NoDup (closure st fuel todo done) /\ (forall x, In x todo \/ In x done -> In x (closure st fuel todo done)) /\
    (forall x y, In x (closure st fuel todo done) -> nexts x y -> In y (closure st fuel todo done)) /\ (forall x, In x (closure st fuel todo done) -> P x).
  Proof.
    intros CP. induction fuel as [|fuel IH]; intros todo done NT ND DIS IT ID LE CL PP; destruct todo as [|x todo']; cbn [closure].
    - split; [exact ND|]. split; [intros x [[]|H]; exact H|]. split; [intros x y I N; destruct (CL x y I N) as [[]|H]; exact H|auto].
    - exfalso. assert (N : NoDup (x :: done)) by (constructor; [apply DIS; now left|exact ND]).
      assert (S (length done) <= length (st_keys st))%nat; [|cbn in LE; lia]. apply (NoDup_incl_length N). intros y [<-|I]; [apply IT; now left|auto].
    - split; [exact ND|]. split; [intros x [[]|H]; exact H|]. split; [intros x y I N; destruct (CL x y I N) as [[]|H]; exact H|auto].
    - inversion NT as [|? ? NX NT']; subst.
      set (done' := done ++ [x]). set (todo1 := match g_parent (st_get st x) with Some p => todo_add done' todo' p | None => todo' end).
      assert (ID' : forall y, In y done' <-> In y done \/ y = x) by (intros y; unfold done'; rewrite in_app_iff; cbn [In]; intuition congruence).
      assert (T1 : forall y, In y todo1 <-> In y todo' \/ (g_parent (st_get st x) = Some y /\ ~ In y done')).
      { intros y. unfold todo1. destruct (g_parent (st_get st x)) as [p|]; [rewrite todo_add_in|]; intuition congruence. }
      assert (T2 : forall y, In y (fold_left (todo_add done') (g_children (st_get st x)) todo1) <-> In y todo' \/ (nexts x y /\ ~ In y done')).
      { intros y. rewrite todo_adds_in, T1. unfold nexts. tauto. }
      assert (NT1 : NoDup todo1) by (unfold todo1; destruct (g_parent (st_get st x)); [now apply todo_add_nodup|exact NT']).
      specialize (IH (fold_left (todo_add done') (g_children (st_get st x)) todo1) done').
      destruct IH as (A & B & C & D).
      + now apply todo_adds_nodup.
      + apply NoDup_snoc; [exact ND|apply DIS; now left].
      + intros y I. apply T2 in I. destruct I as [I|(_ & I)]; [|exact I]. intros J. apply ID' in J. destruct J as [J| ->]; [apply (DIS y); [now right|exact J]|contradiction].
      + intros y I. apply T2 in I. destruct I as [I|([I|I] & _)]; [apply IT; now right|now apply (parent_stop x)|now apply (child_stop x)].
      + intros y I. apply ID' in I. destruct I as [I| ->]; [auto|apply IT; now left].
      + unfold done'. rewrite app_length. cbn [length]. lia.
      + intros y z I N. rewrite T2. destruct (in_dec Nat.eq_dec z done') as [J|J]; [now right|left]. apply ID' in I. destruct I as [I| ->]; [|auto].
        destruct (CL y z I N) as [[->|K]|K]; [exfalso; apply J; apply ID'; now right|now left|exfalso; apply J; apply ID'; now left].
      + intros y [I|I]; [apply T2 in I; destruct I as [I|(I & _)]; [apply PP; left; now right|apply (CP x); [apply PP; left; now left|exact I]]|].
        apply ID' in I. destruct I as [I| ->]; apply PP; [now right|left; now left].
      + split; [exact A|]. split; [|auto]. intros y [[<-|I]|I]; apply B; [right; apply ID'; now right|left; apply T2; now left|right; apply ID'; now left].
  Qed.
  Lemma sadds_in : forall xs l y, In y (fold_left (fun l c => sadd c l) xs l) <-> In y l \/ In y xs.
  Proof. induction xs as [|x xs IH]; intros l y; cbn [fold_left]; [cbn [In]; tauto|]. rewrite IH, sadd_in. cbn [In]. intuition congruence. Qed.
  Lemma sadds_nodup : forall xs l, NoDup l -> NoDup (fold_left (fun l c => sadd c l) xs l).
  Proof. induction xs as [|x xs IH]; intros l ND; cbn [fold_left]; [exact ND|]. apply IH. now apply sadd_nodup. Qed.
  Lemma sadds2_in : forall ds l y, In y (fold_left (fun l d => fold_left (fun l c => sadd c l) (g_children (st_get st d)) l) ds l) <-> In y l \/ exists d, In d ds /\ In y (g_children (st_get st d)).
  Proof.
    induction ds as [|d ds IH]; intros l y; cbn [fold_left]; [split; [auto|intros [H|(d & [] & _)]; exact H]|]. rewrite IH, sadds_in. cbn [In]. split.
    - intros [[H|H]|(d' & I & H)]; eauto.
    - intros [H|(d' & [<-|I] & H)]; eauto.
  Qed.
  Lemma sadds2_nodup : forall ds l, NoDup l -> NoDup (fold_left (fun l d => fold_left (fun l c => sadd c l) (g_children (st_get st d)) l) ds l).
  Proof. induction ds as [|d ds IH]; intros l ND; cbn [fold_left]; [exact ND|]. apply IH. now apply sadds_nodup. Qed.
  Lemma keep_spec s x : keep dist2 st s x = true <-> Reach dist2 rows s x.
  Proof.
    unfold keep, Reach. rewrite negb_true_iff.
    assert (PA : match g_parent (st_get st s) with Some p => Nat.eqb p x | None => false end = true <-> Parent rows s x).
    { rewrite (ri_parent _ _ RI). destruct (g_parent _) as [p|]; [rewrite Nat.eqb_eq; split; congruence|split; discriminate]. }
    assert (CH : smem x (g_children (st_get st s)) = true <-> Child rows x s) by (rewrite smem_in; apply (ri_children _ _ RI)).
    set (b1 := match g_parent (st_get st s) with Some p => Nat.eqb p x | None => false end) in *. set (b2 := smem x (g_children (st_get st s))) in *.
    set (d := dist2 _ _). split.
    - intros H. apply orb_false_iff in H. destruct H as (H1 & H2). exists (g_coord (st_get st s)), (g_coord (st_get st x)). split; [now apply at_iff|]. split; [now apply at_iff|]. fold d.
      rewrite Z.gtb_ltb in H2. apply Z.ltb_ge in H2. split; [lia|]. destruct (Z.leb_spec d 250000) as [L|L]; [left; lia|]. right.
      assert (G : (d >? 250000) = true) by (apply Z.gtb_lt; lia). rewrite G in H1. cbn [andb] in H1.
      destruct b1; [left; tauto|]. destruct b2; [right; tauto|]. discriminate.
    - intros (cs & cx & A & B & L1 & L2). apply at_iff in A. apply at_iff in B. subst cs cx. fold d in L1, L2. apply orb_false_iff. split; [|rewrite Z.gtb_ltb; apply Z.ltb_ge; lia].
      destruct L2 as [L|[L|L]].
      + assert (G : (d >? 250000) = false) by (rewrite Z.gtb_ltb; apply Z.ltb_ge; lia). now rewrite G.
      + apply PA in L. rewrite L. cbn. now rewrite andb_false_r.
      + apply CH in L. rewrite L. cbn. now rewrite andb_false_r.
  Qed.
  Lemma metas_spec s : IsStop rows s -> NoDup (get_metas near_origin in_radius dist2 st s) /\ forall x, In x (get_metas near_origin in_radius dist2 st s) <-> Meta near_origin in_radius dist2 rows s x.
  Proof.
    intros IS. unfold get_metas. set (todo := fold_left _ _ [s]).
    assert (NT : NoDup todo) by (apply sadds_nodup; constructor; [intros []|constructor]).
    assert (TI : forall y, In y todo <-> y = s \/ SameName rows s y \/ CloseTo near_origin in_radius rows s y).
    { intros y. unfold todo. rewrite sadds_in, in_app_iff, same_name_spec, close_spec. cbn [In]. intuition congruence. }
    destruct (closure_spec (Linked near_origin in_radius rows s)) with (fuel := length (st_keys st)) (todo := todo) (done := @nil nat) as (A & B & C & D).
    - intros x y L [N|N]; [apply (L_parent _ _ _ _ x); [exact L|now apply (ri_parent _ _ RI)]|apply (L_child _ _ _ _ x); [exact L|now apply (ri_children _ _ RI)]].
    - exact NT.
    - constructor.
    - intros x _ [].
    - intros y I. apply TI in I. apply (ri_keys _ _ RI). destruct I as [->|[(_ & n & c & r & _ & _ & I & R & _)|(I & _)]]; [exact IS| |exact I]. exists r, y. auto.
    - intros y [].
    - cbn. lia.
    - intros x y [].
    - intros x [I|[]]. apply TI in I. destruct I as [->|[I|I]]; [apply L_self|now apply L_name|now apply L_close].
    - set (cl := closure st (length (st_keys st)) todo []) in *.
      assert (CI : forall x, In x cl <-> Linked near_origin in_radius rows s x).
      { intros x. split; [apply D|]. intros L. induction L as [|x L|x L|x p L IH P|x c L IH P].
        - apply B. left. apply TI. now left.
        - apply B. left. apply TI. auto.
        - apply B. left. apply TI. auto.
        - apply (C x); [exact IH|]. left. now apply (ri_parent _ _ RI).
        - apply (C x); [exact IH|]. right. now apply (ri_children _ _ RI). }
      split; [apply sadds2_nodup; now apply NoDup_filter|]. intros x. rewrite sadds2_in, filter_In, CI, keep_spec. unfold Meta. split.
      + intros [H|(d & I & H)]; [now left|right]. apply filter_In in I. rewrite CI, keep_spec in I. exists d. destruct I. split; [assumption|]. split; [assumption|]. now apply (ri_children _ _ RI).
      + intros [H|(d & L & R & H)]; [now left|right]. exists d. rewrite filter_In, CI, keep_spec. split; [auto|]. now apply (ri_children _ _ RI).
  Qed.
End Metas.
(** transfers.txt *)
Lemma first_snoc {A} (P : A -> Prop) l x r : FirstOf P (l ++ [x]) r <-> FirstOf P l r \/ ((forall y, In y l -> ~ P y) /\ P x /\ r = x).
Proof.
  split.
  - intros (pre & post & E & H & N). destruct (exists_last (l := r :: post)) as (m & y & EM); [discriminate|].
    assert (X : l ++ [x] = (pre ++ m) ++ [y]) by (rewrite <- app_assoc, <- EM; exact E). apply app_inj_tail in X. destruct X as (-> & ->).
    destruct m as [|z m]; cbn [app] in EM; injection EM as -> EM; [right; rewrite app_nil_r; auto|]. left. exists pre, m. auto.
  - intros [(pre & post & -> & H & N)|(N & H & ->)].
    + exists pre, (post ++ [x]). split; [now rewrite <- app_assoc|auto].
    + exists l, []. auto.
Qed.
Lemma first_in {A} (P : A -> Prop) l r : FirstOf P l r -> In r l /\ P r.
Proof. intros (pre & post & -> & H & _). split; [apply in_or_app; right; now left|exact H]. Qed.
Lemma first_unique {A} (P : A -> Prop) l r r' : FirstOf P l r -> FirstOf P l r' -> r = r'.
Proof.
  intros (pre & post & E & H & N) (pre' & post' & E' & H' & N'). revert pre' E' N'. subst l. induction pre as [|a pre IH]; intros [|a' pre'] E' N'; cbn [app] in E'.
  - now injection E'.
  - injection E' as -> E'. exfalso. apply (N' a' (or_introl eq_refl)). exact H.
  - injection E' as -> E'. exfalso. apply (N r' (or_introl eq_refl)). exact H'.
  - injection E' as -> E'. apply (IH (fun y I => N y (or_intror I)) pre' E' (fun y I => N' y (or_intror I))).
Qed.
Lemma first_exists {A} (P : A -> Prop) (D : forall x, {P x} + {~ P x}) l x : In x l -> P x -> exists r, FirstOf P l r.
Proof.
  induction l as [|y l IH]; intros I H; [destruct I|]. destruct (D y) as [Y|Y].
  - exists y, [], l. split; [reflexivity|]. split; [exact Y|intros z []].
  - destruct I as [->|I]; [contradiction|]. destruct (IH I H) as (r & pre & post & -> & R & N). exists r, (y :: pre), post. split; [reflexivity|]. split; [exact R|]. intros z [<-|J]; auto.
Qed.
Lemma row_dec a b r : {Row a b r} + {~ Row a b r}.
Proof. unfold Row. destruct (Nat.eq_dec (t_from r) a), (Nat.eq_dec (t_to r) b), (Z.eq_dec (t_type r) 3), (Z.eq_dec (t_type r) 4); tauto. Qed.
Section Transfers.
  Variable keys : list nat.
  Record TInv (trows : list trow) (tf : transfers) : Prop := {
    ti_foot : forall a b d, In (b, d) (tf_foot tf a) <-> a <> b /\ In a keys /\ In b keys /\ exists r, FirstOf (Row a b) trows r /\ d = t_time r / 60;
    ti_nodup : forall a, NoDup (map fst (tf_foot tf a));
    ti_some : forall a m, tf_time tf a = Some m -> In a keys /\ (exists r, In r trows /\ Row a a r /\ m = t_time r / 60) /\ (forall r, In r trows -> Row a a r -> m <= t_time r / 60);
    ti_none : forall a, tf_time tf a = None -> In a keys -> forall r, In r trows -> ~ Row a a r;
    ti_seated : forall a b, In b (tf_seated tf a) <-> exists r, In r trows /\ t_type r = 4 /\ t_ftrip r = Some a /\ t_ttrip r = Some b }.
  Lemma snoc_in {A} (l : list A) x y : In y (l ++ [x]) <-> In y l \/ y = x.
  Proof. rewrite in_app_iff. cbn [In]. intuition congruence. Qed.
  Lemma read_transfers_inv trows : Forall TRange trows -> TInv trows (fold_left (add_transfer keys) trows no_transfers).
  Proof.
    induction trows as [|r trows IH] using rev_ind; intros FR.
    - constructor; cbn.
      + intros a b d. split; [intros []|intros (_ & _ & _ & r & (pre & post & E & _) & _)]. destruct pre; discriminate.
      + constructor.
      + discriminate.
      + intros a _ _ r [].
      + intros a b. split; [intros []|intros (r & [] & _)].
    - apply Forall_app in FR. destruct FR as (FR & FX). inversion FX as [|? ? (R1 & R2) _]; subst. specialize (IH FR). destruct IH as [A B C D E].
      rewrite fold_left_app. cbn [fold_left]. set (tf := fold_left (add_transfer keys) trows no_transfers) in *.
      assert (MIN : row_minutes r = t_time r / 60).
      { unfold row_minutes. rewrite Z.quot_div_nonneg by lia. unfold to_i16. assert (0 <= t_time r / 60 < 32768) by (split; [apply Z.div_pos; lia|apply Z.div_lt_upper_bound; lia]). rewrite Z.mod_small by lia. lia. }
      assert (SKIP : (forall a b, In a keys -> In b keys -> ~ Row a b r) -> t_type r <> 4 \/ t_ftrip r = None \/ t_ttrip r = None -> TInv (trows ++ [r]) tf).
      { intros NR N4. constructor.
        - intros a b d. rewrite A. split.
          + intros (N & Ia & Ib & x & F & X). split; [exact N|]. split; [exact Ia|]. split; [exact Ib|]. exists x. split; [apply first_snoc; now left|exact X].
          + intros (N & Ia & Ib & x & F & X). split; [exact N|]. split; [exact Ia|]. split; [exact Ib|]. exists x. split; [|exact X]. apply first_snoc in F. destruct F as [F|(_ & F & ->)]; [exact F|]. now apply NR in F.
        - exact B.
        - intros a m H. apply C in H. destruct H as (K & (x & I & X) & H). split; [exact K|]. split; [exists x; split; [apply snoc_in; now left|exact X]|]. intros y J RY. apply snoc_in in J. destruct J as [J| ->]; [auto|now apply NR in RY].
        - intros a H K y J RY. apply snoc_in in J. destruct J as [J| ->]; [now apply (D a H K y J)|now apply NR in RY].
        - intros a b. rewrite E. split; intros (x & I & X1 & X2 & X3); exists x; (split; [|auto]); [apply snoc_in; now left|]. apply snoc_in in I. destruct I as [I| ->]; [exact I|]. exfalso. destruct N4 as [?|[?|?]]; congruence. }
      unfold add_transfer. rewrite Z.mod_small by lia. destruct (Z.eqb_spec (t_type r) 3) as [T3|T3].
      { apply SKIP; [intros a b _ _ (_ & _ & X & _); contradiction|left; lia]. }
      destruct (Z.eqb_spec (t_type r) 4) as [T4|T4].
      { assert (NR : forall a b, In a keys -> In b keys -> ~ Row a b r) by (intros a b _ _ (_ & _ & _ & X); contradiction).
        destruct (t_ftrip r) as [fa|] eqn:F1; [|apply SKIP; auto]. destruct (t_ttrip r) as [fb|] eqn:F2; [|apply SKIP; auto]. constructor; cbn [tf_foot tf_time tf_seated].
        - intros a b d. rewrite A. split; intros (N & Ia & Ib & x & F & X); (split; [exact N|]); (split; [exact Ia|]); (split; [exact Ib|]); exists x; (split; [|exact X]); [apply first_snoc; now left|].
          apply first_snoc in F. destruct F as [F|(_ & F & ->)]; [exact F|]. now apply NR in F.
        - exact B.
        - intros a m H. apply C in H. destruct H as (K & (x & I & X) & H). split; [exact K|]. split; [exists x; split; [apply snoc_in; now left|exact X]|]. intros y J RY. apply snoc_in in J. destruct J as [J| ->]; [auto|now apply NR in RY].
        - intros a H K y J RY. apply snoc_in in J. destruct J as [J| ->]; [now apply (D a H K y J)|now apply NR in RY].
        - intros a b. destruct (Nat.eq_dec a fa) as [->|N].
          + rewrite sset_same, snoc_in, E. split.
            * intros [(x & I & X)| ->]; [exists x; split; [apply snoc_in; now left|exact X]|exists r; split; [apply snoc_in; now right|auto]].
            * intros (x & I & X1 & X2 & X3). apply snoc_in in I. destruct I as [I| ->]; [left; eauto|right; congruence].
          + rewrite sset_other by exact N. rewrite E. split; intros (x & I & X1 & X2 & X3); exists x; (split; [|auto]); [apply snoc_in; now left|]. apply snoc_in in I. destruct I as [I| ->]; [exact I|congruence]. }
      destruct (smem (t_from r) keys) eqn:KF; cbn [negb].
      2:{ apply SKIP; [|left; exact T4]. intros a b Ia _ (<- & _). apply smem_in in Ia. congruence. }
      destruct (smem (t_to r) keys) eqn:KT; cbn [negb].
      2:{ apply SKIP; [|left; exact T4]. intros a b _ Ib (_ & <- & _). apply smem_in in Ib. congruence. }
      apply smem_in in KF. apply smem_in in KT. destruct (Nat.eqb_spec (t_from r) (t_to r)) as [EQ|NE].
      + assert (RR : Row (t_from r) (t_from r) r) by (repeat split; auto).
        constructor; cbn [tf_foot tf_time tf_seated].
        * intros a b d. rewrite A. split; intros (N & Ia & Ib & x & F & X); (split; [exact N|]); (split; [exact Ia|]); (split; [exact Ib|]); exists x; (split; [|exact X]); [apply first_snoc; now left|].
          apply first_snoc in F. destruct F as [F|(_ & (F1 & F2 & _) & ->)]; [exact F|]. congruence.
        * exact B.
        * intros a m. destruct (Nat.eq_dec a (t_from r)) as [->|N].
          -- rewrite sset_same. intros [= <-]. split; [exact KF|]. destruct (tf_time tf (t_from r)) as [x|] eqn:ET.
             ++ destruct (C _ _ ET) as (_ & (w & IW & RW & ->) & MW). split.
                ** destruct (Z.min_spec (row_minutes r) (t_time w / 60)) as [(L & ->)|(L & ->)]; [exists r; split; [apply snoc_in; now right|auto]|exists w; split; [apply snoc_in; now left|auto]].
                ** intros y J RY. apply snoc_in in J. destruct J as [J| ->]; [specialize (MW y J RY)|]; lia.
             ++ split; [exists r; split; [apply snoc_in; now right|auto]|]. intros y J RY. apply snoc_in in J. destruct J as [J| ->]; [exfalso; now apply (D _ ET KF y J)|lia].
          -- rewrite sset_other by exact N. intros H. apply C in H. destruct H as (K & (x & I & X) & H). split; [exact K|]. split; [exists x; split; [apply snoc_in; now left|exact X]|].
             intros y J RY. apply snoc_in in J. destruct J as [J| ->]; [auto|]. destruct RY as (RY & _). congruence.
        * intros a. destruct (Nat.eq_dec a (t_from r)) as [->|N]; [rewrite sset_same; discriminate|]. rewrite sset_other by exact N. intros H K y J RY. apply snoc_in in J. destruct J as [J| ->]; [now apply (D a H K y J)|]. destruct RY as (RY & _). congruence.
        * intros a b. rewrite E. split; intros (x & I & X1 & X2 & X3); exists x; (split; [|auto]); [apply snoc_in; now left|]. apply snoc_in in I. destruct I as [I| ->]; [exact I|contradiction].
      + assert (RR : Row (t_from r) (t_to r) r) by (repeat split; auto).
        assert (REST : forall tf', tf_time tf' = tf_time tf -> tf_seated tf' = tf_seated tf ->
          (forall a b d, In (b, d) (tf_foot tf' a) <-> In (b, d) (tf_foot tf a) \/ (a = t_from r /\ b = t_to r /\ d = t_time r / 60 /\ forall x, In x trows -> ~ Row a b x)) ->
          (forall a, NoDup (map fst (tf_foot tf' a))) -> TInv (trows ++ [r]) tf').
        { intros tf' ET ES EF EN. constructor.
          - intros a b d. rewrite EF, A. split.
            + intros [(N & Ia & Ib & x & F & X)|(-> & -> & -> & NX)]; [split; [exact N|]; split; [exact Ia|]; split; [exact Ib|]; exists x; split; [apply first_snoc; now left|exact X]|].
              split; [exact NE|]. split; [exact KF|]. split; [exact KT|]. exists r. split; [|reflexivity]. apply first_snoc. right. auto.
            + intros (N & Ia & Ib & x & F & X). apply first_snoc in F. destruct F as [F|(NX & (F1 & F2 & _) & ->)]; [left; eauto 8|right]. subst a b. auto.
          - exact EN.
          - intros a m. rewrite ET. intros H. apply C in H. destruct H as (K & (x & I & X) & H). split; [exact K|]. split; [exists x; split; [apply snoc_in; now left|exact X]|].
            intros y J RY. apply snoc_in in J. destruct J as [J| ->]; [auto|]. destruct RY as (RY1 & RY2 & _). congruence.
          - intros a. rewrite ET. intros H K y J RY. apply snoc_in in J. destruct J as [J| ->]; [now apply (D a H K y J)|]. destruct RY as (RY1 & RY2 & _). congruence.
          - intros a b. rewrite ES, E. split; intros (x & I & X1 & X2 & X3); exists x; (split; [|auto]); [apply snoc_in; now left|]. apply snoc_in in I. destruct I as [I| ->]; [exact I|contradiction]. }
        destruct (existsb _ (tf_foot tf (t_from r))) eqn:EX.
        * apply REST; auto. intros a b d. split; [now left|]. intros [H|(-> & -> & _ & NX)]; [exact H|]. exfalso. apply existsb_exists in EX. destruct EX as ((b & d') & I & X). cbn in X. apply Nat.eqb_eq in X. subst b.
          apply A in I. destruct I as (_ & _ & _ & x & F & _). apply first_in in F. destruct F as (I & R). now apply NX in R.
        * assert (NX : forall d, ~ In (t_to r, d) (tf_foot tf (t_from r))).
          { intros d I. assert (T : existsb (fun fp => Nat.eqb (fst fp) (t_to r)) (tf_foot tf (t_from r)) = true) by (apply existsb_exists; eexists; split; [exact I|apply Nat.eqb_refl]). congruence. }
          apply REST; cbn [tf_foot tf_time tf_seated]; auto.
          -- intros a b d. destruct (Nat.eq_dec a (t_from r)) as [->|N]; [|rewrite sset_other by exact N; intuition congruence]. rewrite sset_same, snoc_in, MIN. split.
             ++ intros [H|[= -> ->]]; [now left|right]. split; [reflexivity|]. split; [reflexivity|]. split; [reflexivity|]. intros x I R. destruct (first_exists _ (row_dec _ _) _ _ I R) as (x0 & F). apply (NX (t_time x0 / 60)). apply A. eauto 8.
             ++ intros [H|(_ & -> & -> & _)]; auto.
          -- intros a. destruct (Nat.eq_dec a (t_from r)) as [->|N]; [|rewrite sset_other by exact N; apply B]. rewrite sset_same, map_app. cbn [map fst]. apply NoDup_snoc; [apply B|].
             intros I. apply in_map_iff in I. destruct I as ((b & d) & X & I). cbn in X. subst b. now apply NX in I.
  Qed.
End Transfers.
(** Footpaths: a list of insertions (location, target, minutes), the first one of each pair wins. *)
Definition op := (nat * nat * Z)%type.
Definition addop (f : nat -> list (nat * Z)) (o : op) := add_if_not_exists f (fst (fst o)) (snd (fst o)) (snd o).
Definition pushop (f : nat -> list (nat * Z)) (o : op) := push f (fst (fst o)) (snd (fst o)) (snd o).
Definition swapop (o : op) : op := (snd (fst o), fst (fst o), snd o).
Definition FirstOp (ops : list op) (a b : nat) (d : Z) : Prop := exists d0, FirstOf (fun o : op => fst o = (a, b)) ops (a, b, d0) /\ d = fp_minutes d0.
Lemma has_false (f : nat -> list (nat * Z)) a b : existsb (fun x => Nat.eqb (fst x) b) (f a) = false <-> forall d, ~ In (b, d) (f a).
Proof.
  split.
  - intros E d I. assert (T : existsb (fun x => Nat.eqb (fst x) b) (f a) = true) by (apply existsb_exists; eexists; split; [exact I|apply Nat.eqb_refl]). congruence.
  - intros H. destruct (existsb _ (f a)) eqn:E; [|reflexivity]. apply existsb_exists in E. destruct E as ((b' & d) & I & X). cbn in X. apply Nat.eqb_eq in X. subst b'. now apply H in I.
Qed.
Lemma addop_in f o a b d : In (b, d) (addop f o a) <-> In (b, d) (f a) \/ (fst o = (a, b) /\ (forall d', ~ In (b, d') (f a)) /\ d = fp_minutes (snd o)).
Proof.
  destruct o as [[l t] m]. unfold addop, add_if_not_exists. cbn [fst snd]. destruct (existsb _ (f l)) eqn:E.
  - split; [auto|]. intros [H|([= -> ->] & N & _)]; [exact H|]. apply has_false in N. congruence.
  - destruct (Nat.eq_dec a l) as [->|N].
    + rewrite sset_same, snoc_in. split; [intros [H|[= -> ->]]; [now left|right]|intros [H|([= ->] & _ & ->)]; auto]. split; [reflexivity|]. split; [now apply has_false|reflexivity].
    + rewrite sset_other by exact N. split; [auto|]. intros [H|([= -> _] & _)]; [exact H|contradiction].
Qed.
Lemma addop_nodup f o : (forall a, NoDup (map fst (f a))) -> forall a, NoDup (map fst (addop f o a)).
Proof.
  intros H a. destruct o as [[l t] m]. unfold addop, add_if_not_exists. cbn [fst snd]. destruct (existsb _ (f l)) eqn:E; [apply H|]. destruct (Nat.eq_dec a l) as [->|N]; [|rewrite sset_other by exact N; apply H].
  rewrite sset_same, map_app. cbn [map fst]. apply NoDup_snoc; [apply H|]. intros I. apply in_map_iff in I. destruct I as ((b & d) & X & I). cbn in X. subst b. apply (proj1 (has_false f l t) E d I).
Qed.
Lemma addops_nodup : forall ops f, (forall a, NoDup (map fst (f a))) -> forall a, NoDup (map fst (fold_left addop ops f a)).
Proof. induction ops as [|o ops IH]; intros f H; cbn [fold_left]; [exact H|]. apply IH. now apply addop_nodup. Qed.
Lemma first_cons {A} (P : A -> Prop) x l r : FirstOf P (x :: l) r <-> (P x /\ r = x) \/ (~ P x /\ FirstOf P l r).
Proof.
  split.
  - intros (pre & post & E & H & N). destruct pre as [|y pre]; cbn [app] in E; injection E as -> ->; [left; auto|]. right. split; [apply N; now left|]. exists pre, post. split; [reflexivity|]. split; [exact H|]. intros z I. apply N. now right.
  - intros [(H & ->)|(N & pre & post & -> & H & N')]; [exists [], l; split; [reflexivity|]; split; [exact H|intros z []]|]. exists (x :: pre), post. split; [reflexivity|]. split; [exact H|]. intros z [<-|I]; auto.
Qed.
Lemma first_app {A} (P : A -> Prop) l m r : FirstOf P (l ++ m) r <-> FirstOf P l r \/ ((forall x, In x l -> ~ P x) /\ FirstOf P m r).
Proof.
  induction l as [|x l IH]; cbn [app].
  - split; [intros H; right; split; [intros x []|exact H]|]. intros [(pre & post & E & _)|(_ & H)]; [destruct pre; discriminate|exact H].
  - rewrite !first_cons, IH. cbn [In]. split.
    + intros [H|(N & [H|(H1 & H2)])]; auto. right. split; [|exact H2]. intros z [<-|I]; auto.
    + intros [[H|(N & H)]|(H1 & H2)]; [now left|right; auto|right]. split; [apply H1; now left|]. right. split; [intros z I; apply H1; now right|exact H2].
Qed.
Lemma pair_dec (a b : nat) (o : op) : {fst o = (a, b)} + {fst o <> (a, b)}.
Proof. decide equality; apply Nat.eq_dec. Qed.
Lemma addops_in : forall ops f a b d, In (b, d) (fold_left addop ops f a) <-> In (b, d) (f a) \/ ((forall d', ~ In (b, d') (f a)) /\ FirstOp ops a b d).
Proof.
  induction ops as [|o ops IH]; intros f a b d; cbn [fold_left].
  - split; [auto|]. intros [H|(_ & d0 & (pre & post & E & _) & _)]; [exact H|destruct pre; discriminate].
  - rewrite IH, addop_in. unfold FirstOp. split.
    + intros [[H|(E & N & ->)]|(N & d0 & F & ->)].
      * now left.
      * right. split; [exact N|]. exists (snd o). split; [|reflexivity]. apply first_cons. left. split; [exact E|]. destruct o as [p m]. cbn [fst snd] in *. now subst p.
      * assert (NF : forall d', ~ In (b, d') (f a)) by (intros d' I; apply (N d'); apply addop_in; now left).
        right. split; [exact NF|]. exists d0. split; [|reflexivity]. apply first_cons. right. split; [|exact F]. intros E. apply (N (fp_minutes (snd o))). apply addop_in. auto.
    + intros [H|(N & d0 & F & ->)]; [auto|]. apply first_cons in F. destruct F as [(E & X)|(NE & F)].
      * left. right. subst o. auto.
      * right. split; [|eauto]. intros d' I. apply addop_in in I. destruct I as [I|(E & _)]; [now apply N in I|contradiction].
Qed.
Lemma pushops_addops : forall ops f, NoDup (map fst ops) -> (forall o, In o ops -> forall d, ~ In (snd (fst o), d) (f (fst (fst o)))) -> fold_left pushop ops f = fold_left addop ops f.
Proof.
  induction ops as [|o ops IH]; intros f ND H; cbn [fold_left]; [reflexivity|]. inversion ND as [|? ? N ND']; subst.
  assert (E : pushop f o = addop f o).
  { unfold pushop, addop, add_if_not_exists. specialize (H o (or_introl eq_refl)). apply has_false in H. now rewrite H. }
  rewrite E. apply IH; [exact ND'|]. intros o' I d J. apply addop_in in J. destruct J as [J|(J & _)]; [apply (H o' (or_intror I) d J)|].
  apply N. rewrite J. destruct o' as [[x y] z]. cbn [fst snd]. change (x, y) with (fst (x, y, z)). now apply in_map.
Qed.

Section Feet.
  Variable near_origin : nat -> bool.
  Variable in_radius : nat -> nat -> bool.
  Variable dist2 : nat -> nat -> Z.
  Variable walk : nat -> nat -> Z.
  Variable st : stops.
  Variable tf : transfers.
  Let metas := get_metas near_origin in_radius dist2 st.
  Let wk (s e : nat) : Z := walk (g_coord (st_get st s)) (g_coord (st_get st e)).
  Definition ops1 (order : list nat) : list op := flat_map (fun s => map (fun fp => (s, fst fp, snd fp)) (tf_foot tf s)) order.
  Definition ops2 (order : list nat) : list op := flat_map (fun s => map (fun fp => (fst fp, s, snd fp)) (tf_foot tf s)) order.
  Definition gens (s e : nat) : list op := if wk s e >? 511 then [] else [(s, e, wk s e); (e, s, wk s e)].
  Definition ops3 (order : list nat) : list op := flat_map (fun s => flat_map (gens s) (metas s)) order.
  Lemma gtfs_fold : forall order f, let g := fold_left (gtfs_foot tf) order f in
    f_out g = fold_left pushop (ops1 order) (f_out f) /\ f_in g = fold_left pushop (map swapop (ops1 order)) (f_in f) /\ f_eq g = f_eq f.
  Proof.
    induction order as [|s order IH]; intros f; cbn [fold_left ops1 flat_map map]; [auto|]. rewrite map_app, !fold_left_app. cbv zeta in *.
    destruct (IH (gtfs_foot tf f s)) as (A & B & C). rewrite A, B, C. fold (ops1 order). clear.
    assert (X : forall l f, let g := fold_left (fun f fp => {| f_out := push (f_out f) s (fst fp) (snd fp); f_in := push (f_in f) (fst fp) s (snd fp); f_eq := f_eq f |}) l f in
      f_out g = fold_left pushop (map (fun fp => (s, fst fp, snd fp)) l) (f_out f) /\ f_in g = fold_left pushop (map swapop (map (fun fp => (s, fst fp, snd fp)) l)) (f_in f) /\ f_eq g = f_eq f).
    { induction l as [|x l IH]; intros f'; cbn [fold_left map]; [auto|]. destruct (IH {| f_out := push (f_out f') s (fst x) (snd x); f_in := push (f_in f') (fst x) s (snd x); f_eq := f_eq f' |}) as (A & B & C). cbv zeta. rewrite A, B, C. auto. }
    destruct (X (tf_foot tf s) f) as (A & B & C). unfold gtfs_foot. cbv zeta in *. rewrite A, B, C. auto.
  Qed.
  Lemma symm_fold : forall order f, let g := fold_left (symm_foot tf) order f in
    f_out g = fold_left addop (ops2 order) (f_out f) /\ f_in g = fold_left addop (map swapop (ops2 order)) (f_in f) /\ f_eq g = f_eq f.
  Proof.
    induction order as [|s order IH]; intros f; cbn [fold_left ops2 flat_map map]; [auto|]. rewrite map_app, !fold_left_app. cbv zeta in *.
    destruct (IH (symm_foot tf f s)) as (A & B & C). rewrite A, B, C. fold (ops2 order). clear.
    assert (X : forall l f, let g := fold_left (fun f fp => {| f_out := add_if_not_exists (f_out f) (fst fp) s (snd fp); f_in := add_if_not_exists (f_in f) s (fst fp) (snd fp); f_eq := f_eq f |}) l f in
      f_out g = fold_left addop (map (fun fp => (fst fp, s, snd fp)) l) (f_out f) /\ f_in g = fold_left addop (map swapop (map (fun fp => (fst fp, s, snd fp)) l)) (f_in f) /\ f_eq g = f_eq f).
    { induction l as [|x l IH]; intros f'; cbn [fold_left map]; [auto|]. destruct (IH {| f_out := add_if_not_exists (f_out f') (fst x) s (snd x); f_in := add_if_not_exists (f_in f') s (fst x) (snd x); f_eq := f_eq f' |}) as (A & B & C). cbv zeta. rewrite A, B, C. auto. }
    destruct (X (tf_foot tf s) f) as (A & B & C). unfold symm_foot. cbv zeta in *. rewrite A, B, C. auto.
  Qed.
  Lemma gen_one_eq s e f : let g := gen_one walk st s f e in
    f_out g = fold_left addop (gens s e) (f_out f) /\ f_in g = fold_left addop (map swapop (gens s e)) (f_in f) /\
    f_eq g = if wk s e >? 511 then f_eq f else sset (f_eq f) s (f_eq f s ++ [e]).
  Proof. unfold gen_one, gens. fold (wk s e). destruct (wk s e >? 511); cbv zeta; cbn; auto. Qed.
  Lemma gen_inner s : forall l f, let g := fold_left (gen_one walk st s) l f in
    f_out g = fold_left addop (flat_map (gens s) l) (f_out f) /\ f_in g = fold_left addop (map swapop (flat_map (gens s) l)) (f_in f) /\
    (forall a, f_eq g a = if Nat.eqb a s then f_eq f s ++ filter (fun e => wk s e <=? 511) l else f_eq f a).
  Proof.
    induction l as [|e l IH]; intros f; cbn [fold_left flat_map map filter].
    - cbv zeta. split; [reflexivity|]. split; [reflexivity|]. intros a. rewrite app_nil_r. destruct (Nat.eqb_spec a s); congruence.
    - rewrite map_app, !fold_left_app. destruct (gen_one_eq s e f) as (A & B & C). destruct (IH (gen_one walk st s f e)) as (A' & B' & C'). cbv zeta in *. rewrite A', B', A, B. split; [reflexivity|]. split; [reflexivity|].
      intros a. rewrite C', C. destruct (Z.gtb_spec (wk s e) 511) as [L|L].
      + assert (F : (wk s e <=? 511) = false) by (apply Z.leb_gt; lia). rewrite F. reflexivity.
      + assert (F : (wk s e <=? 511) = true) by (apply Z.leb_le; lia). rewrite F, sset_same, <- app_assoc. cbn [app]. destruct (Nat.eqb_spec a s) as [->|N]; [reflexivity|]. now rewrite sset_other.
  Qed.
  Lemma gen_fold : forall order f, NoDup order -> let g := fold_left (gen_foot near_origin in_radius dist2 walk st) order f in
    f_out g = fold_left addop (ops3 order) (f_out f) /\ f_in g = fold_left addop (map swapop (ops3 order)) (f_in f) /\
    (forall a, f_eq g a = if smem a order then f_eq f a ++ filter (fun e => wk a e <=? 511) (metas a) else f_eq f a).
  Proof.
    induction order as [|s order IH]; intros f ND; cbn [fold_left ops3 flat_map map]; [cbv zeta; auto|]. inversion ND as [|? ? N ND']; subst. rewrite map_app, !fold_left_app.
    destruct (gen_inner s (metas s) f) as (A & B & C). destruct (IH (gen_foot near_origin in_radius dist2 walk st f s) ND') as (A' & B' & C'). cbv zeta in *. fold (ops3 order).
    unfold gen_foot at 3 in A'. fold metas in A'. rewrite A in A'. unfold gen_foot at 3 in B'. fold metas in B'. rewrite B in B'. split; [exact A'|]. split; [exact B'|].
    intros a. rewrite C'. unfold gen_foot. fold metas. rewrite C. cbn [smem existsb]. fold (smem a order). destruct (Nat.eqb_spec a s) as [->|NE]; cbn [orb]; [|reflexivity].
    assert (F : smem s order = false) by (destruct (smem s order) eqn:E; [apply smem_in in E; contradiction|reflexivity]). now rewrite F.
  Qed.
End Feet.
Lemma nodup_app {A} (l m : list A) : NoDup l -> NoDup m -> (forall x, In x l -> ~ In x m) -> NoDup (l ++ m).
Proof.
  induction l as [|a l IH]; intros X Y D; [exact Y|]. inversion X; subst. cbn [app]. constructor; [|apply IH; auto; intros x I; apply D; now right].
  rewrite in_app_iff. intros [I|I]; [contradiction|]. now apply (D a (or_introl eq_refl)) in I.
Qed.
Lemma nodup_map_inj {A B} (f : A -> B) l : (forall x y, f x = f y -> x = y) -> NoDup l -> NoDup (map f l).
Proof. intros I ND. induction ND as [|x l N ND IH]; cbn [map]; constructor; [|exact IH]. intros J. apply in_map_iff in J. destruct J as (y & E & J). apply I in E. now subst y. Qed.
Lemma first_of_in (ops : list op) p d : NoDup (map fst ops) -> In (p, d) ops -> FirstOf (fun o : op => fst o = p) ops (p, d).
Proof.
  induction ops as [|o ops IH]; intros ND I; [destruct I|]. cbn [map] in ND. inversion ND as [|? ? N ND']; subst. apply first_cons. destruct I as [->|I]; [left; auto|]. right. split; [|auto].
  intros E. apply N. rewrite E. change p with (fst (p, d)). now apply in_map.
Qed.
Lemma first_map ops a b d : FirstOf (fun o : op => fst o = (b, a)) (map swapop ops) (b, a, d) <-> FirstOf (fun o : op => fst o = (a, b)) ops (a, b, d).
Proof.
  assert (SW : forall o : op, fst (swapop o) = (b, a) <-> fst o = (a, b)) by (intros [[x y] z]; cbn; split; intros [= -> ->]; reflexivity).
  induction ops as [|o ops IH]; cbn [map]; [split; intros (pre & post & E & _); destruct pre; discriminate|]. rewrite !first_cons, IH, SW. destruct o as [[x y] z]. unfold swapop. cbn [fst snd].
  split; (intros [(E & F)|H]; [left|now right]); (split; [exact E|]); injection F as -> -> ->; reflexivity.
Qed.
Section Main.
  Variable near_origin : nat -> bool.
  Variable in_radius : nat -> nat -> bool.
  Variable dist2 : nat -> nat -> Z.
  Variable walk : nat -> nat -> Z.
  Variable rows : list srow.
  Variable trows : list trow.
  Variable order : list nat.
  Hypothesis walk_pos : forall a b, 0 <= walk a b.
  Hypothesis trange : Forall TRange trows.
  Hypothesis order_nodup : NoDup order.
  Hypothesis order_in : forall x, In x order <-> IsStop rows x.
  Let st := read_rows rows.
  Let tf := read_transfers st trows.
  Let metas := get_metas near_origin in_radius dist2 st.
  Let wk (s e : nat) : Z := walk (g_coord (st_get st s)) (g_coord (st_get st e)).
  Let TI : TInv (st_keys st) trows tf := read_transfers_inv (st_keys st) trows trange.
  Let RI : RowInv rows st := read_rows_inv rows.
  Let o1 := ops1 tf order.
  Let o2 := ops2 tf order.
  Let o3 := ops3 near_origin in_radius dist2 walk st order.
  Lemma in_o1 a b d : In (a, b, d) o1 <-> In a order /\ In (b, d) (tf_foot tf a).
  Proof.
    unfold o1, ops1. rewrite in_flat_map. split.
    - intros (s & I & J). apply in_map_iff in J. destruct J as ([x y] & [= <- <- <-] & J). auto.
    - intros (I & J). exists a. split; [exact I|]. apply in_map_iff. exists (b, d). auto.
  Qed.
  Lemma in_o2 a b d : In (a, b, d) o2 <-> In b order /\ In (a, d) (tf_foot tf b).
  Proof.
    unfold o2, ops2. rewrite in_flat_map. split.
    - intros (s & I & J). apply in_map_iff in J. destruct J as ([x y] & [= <- <- <-] & J). auto.
    - intros (I & J). exists b. split; [exact I|]. apply in_map_iff. exists (a, d). auto.
  Qed.
  Lemma in_o3 a b d : In (a, b, d) o3 <-> (In a order /\ In b (metas a) /\ wk a b <= 511 /\ d = wk a b) \/ (In b order /\ In a (metas b) /\ wk b a <= 511 /\ d = wk b a).
  Proof.
    unfold o3, ops3. rewrite in_flat_map. unfold gens. fold st metas.
    split.
    - intros (s & I & J). apply in_flat_map in J. destruct J as (e & M & J). change (In (a, b, d) (if wk s e >? 511 then [] else [(s, e, wk s e); (e, s, wk s e)])) in J.
      destruct (Z.gtb_spec (wk s e) 511) as [L|L]; [destruct J|]. destruct J as [[= <- <- <-]|[[= <- <- <-]|[]]]; [left|right]; auto.
    - intros H.
      assert (X : forall s e, In s order -> In e (metas s) -> wk s e <= 511 -> In (a, b, d) [(s, e, wk s e); (e, s, wk s e)] -> exists x, In x order /\ In (a, b, d) (flat_map (fun e => if wk x e >? 511 then [] else [(x, e, wk x e); (e, x, wk x e)]) (metas x))).
      { intros s e I M L J. exists s. split; [exact I|]. apply in_flat_map. exists e. split; [exact M|]. destruct (Z.gtb_spec (wk s e) 511); [lia|exact J]. }
      destruct H as [(I & M & L & ->)|(I & M & L & ->)]; [apply (X a b)|apply (X b a)]; auto; cbn [In]; auto.
  Qed.
  Lemma nodup_o1 l : NoDup l -> NoDup (map fst (ops1 tf l)).
  Proof.
    induction l as [|s l IH]; intros ND; [constructor|]. inversion ND; subst. cbn [ops1 flat_map]. rewrite map_app. apply nodup_app; [| now apply IH |].
    - rewrite map_map. cbn [fst]. rewrite <- map_map with (f := fst) (g := fun x => (s, x)). apply nodup_map_inj; [congruence|]. apply (ti_nodup _ _ _ TI).
    - intros x I J. rewrite map_map in I. apply in_map_iff in I. destruct I as (y & <- & I). apply in_map_iff in J. destruct J as ([[u v] w] & E & J). cbn in E. injection E as -> _.
      apply in_flat_map in J. destruct J as (s' & K & J). apply in_map_iff in J. destruct J as (z & [= -> _ _] & _). contradiction.
  Qed.
  Lemma nodup_o2 l : NoDup l -> NoDup (map fst (ops2 tf l)).
  Proof.
    induction l as [|s l IH]; intros ND; [constructor|]. inversion ND; subst. cbn [ops2 flat_map]. rewrite map_app. apply nodup_app; [| now apply IH |].
    - rewrite map_map. cbn [fst]. rewrite <- map_map with (f := fst) (g := fun x => (x, s)). apply nodup_map_inj; [congruence|]. apply (ti_nodup _ _ _ TI).
    - intros x I J. rewrite map_map in I. apply in_map_iff in I. destruct I as (y & <- & I). apply in_map_iff in J. destruct J as ([[u v] w] & E & J). cbn in E. injection E as _ ->.
      apply in_flat_map in J. destruct J as (s' & K & J). apply in_map_iff in J. destruct J as (z & [= _ -> _] & _). contradiction.
  Qed.
  Lemma nodup_swap ops : NoDup (map fst ops) -> NoDup (map fst (map swapop ops)).
  Proof.
    rewrite map_map. intros ND. assert (E : map (fun o : op => fst (swapop o)) ops = map (fun p : nat * nat => (snd p, fst p)) (map fst ops)) by (rewrite map_map; reflexivity).
    rewrite E. apply nodup_map_inj; [intros [x y] [u v] [= -> ->]; reflexivity|exact ND].
  Qed.
  Let all := o1 ++ o2 ++ o3.
  Let res := read_stops near_origin in_radius dist2 walk rows trows order.
  Lemma res_out : f_out res = fold_left addop all (fun _ => []).
  Proof.
    unfold res, read_stops, all_foots. fold st tf. cbv zeta. set (f0 := {| f_out := fun _ => []; f_in := fun _ => []; f_eq := fun _ => [] |}).
    destruct (gtfs_fold tf order f0) as (A & _ & _). destruct (symm_fold tf order (fold_left (gtfs_foot tf) order f0)) as (B & _ & _).
    destruct (gen_fold near_origin in_radius dist2 walk st order (fold_left (symm_foot tf) order (fold_left (gtfs_foot tf) order f0)) order_nodup) as (C & _ & _).
    cbv zeta in *. rewrite C, B, A. unfold all. rewrite !fold_left_app. fold o1 o2 o3. f_equal. f_equal. apply pushops_addops; [now apply nodup_o1|intros o _ d []].
  Qed.
  Lemma res_in : f_in res = fold_left addop (map swapop all) (fun _ => []).
  Proof.
    unfold res, read_stops, all_foots. fold st tf. cbv zeta. set (f0 := {| f_out := fun _ => []; f_in := fun _ => []; f_eq := fun _ => [] |}).
    destruct (gtfs_fold tf order f0) as (_ & A & _). destruct (symm_fold tf order (fold_left (gtfs_foot tf) order f0)) as (_ & B & _).
    destruct (gen_fold near_origin in_radius dist2 walk st order (fold_left (symm_foot tf) order (fold_left (gtfs_foot tf) order f0)) order_nodup) as (_ & C & _).
    cbv zeta in *. rewrite C, B, A. unfold all. rewrite !map_app, !fold_left_app. fold o1 o2 o3. f_equal. f_equal. apply pushops_addops; [apply nodup_swap; now apply nodup_o1|intros o _ d []].
  Qed.
  Lemma res_eq a : f_eq res a = if smem a order then filter (fun e => wk a e <=? 511) (metas a) else [].
  Proof.
    unfold res, read_stops, all_foots. fold st tf. cbv zeta. set (f0 := {| f_out := fun _ => []; f_in := fun _ => []; f_eq := fun _ => [] |}).
    destruct (gtfs_fold tf order f0) as (_ & _ & A). destruct (symm_fold tf order (fold_left (gtfs_foot tf) order f0)) as (_ & _ & B).
    destruct (gen_fold near_origin in_radius dist2 walk st order (fold_left (symm_foot tf) order (fold_left (gtfs_foot tf) order f0)) order_nodup) as (_ & _ & C).
    cbv zeta in *. rewrite C, B, A. reflexivity.
  Qed.
  Lemma out_in a b d : In (b, d) (f_out res a) <-> FirstOp all a b d.
  Proof. rewrite res_out, addops_in. cbn [In]. intuition. Qed.
  Lemma in_in a b d : In (a, d) (f_in res b) <-> FirstOp all a b d.
  Proof.
    rewrite res_in, addops_in. unfold FirstOp. split.
    - intros [[]|(_ & d0 & F & ->)]. exists d0. split; [now apply first_map|reflexivity].
    - intros (d0 & F & ->). right. split; [intros d' []|]. exists d0. split; [now apply first_map|reflexivity].
  Qed.
  Lemma given_o1 a b d : (exists d0, In (a, b, d0) o1 /\ d = fp_minutes d0) <-> Given rows trows a b d.
  Proof.
    assert (FP : forall r, In r trows -> fp_minutes (t_time r / 60) = Z.min 511 (t_time r / 60)).
    { intros r I. destruct (proj1 (Forall_forall _ _) trange r I) as (_ & R). assert (0 <= t_time r / 60) by (apply Z.div_pos; lia). unfold fp_minutes.
      destruct (Z.gtb_spec (t_time r / 60) 511); [rewrite Z.mod_small by lia; lia|rewrite Z.mod_small by lia; lia]. }
    unfold Given. split.
    - intros (d0 & I & ->). apply in_o1 in I. destruct I as (_ & I). apply (ti_foot _ _ _ TI) in I. destruct I as (N & Ia & Ib & r & F & ->). split; [exact N|].
      split; [now apply (ri_keys _ _ RI)|]. split; [now apply (ri_keys _ _ RI)|]. exists r. split; [exact F|]. apply FP. apply (first_in _ _ _ F).
    - intros (N & Ia & Ib & r & F & ->). exists (t_time r / 60). split; [|symmetry; apply FP; apply (first_in _ _ _ F)]. apply in_o1. split; [now apply order_in|]. apply (ti_foot _ _ _ TI).
      split; [exact N|]. split; [now apply (ri_keys _ _ RI)|]. split; [now apply (ri_keys _ _ RI)|]. eauto.
  Qed.
  Lemma o1_o2 a b d : In (a, b, d) o2 <-> In (b, a, d) o1.
  Proof. rewrite in_o1, in_o2. reflexivity. Qed.
  Lemma near_o3 a b d : In (a, b, d) o3 <-> Near near_origin in_radius dist2 walk rows a b d \/ Near near_origin in_radius dist2 walk rows b a d.
  Proof.
    rewrite in_o3, !order_in. unfold Near.
    assert (W : forall x y m, (exists cs cx, At rows x cs /\ At rows y cx /\ m = walk cs cx) <-> m = wk x y).
    { intros x y m. split; [intros (cs & cx & A & B & ->); apply at_iff in A; apply at_iff in B; now subst|intros ->; exists (g_coord (st_get st x)), (g_coord (st_get st y)); split; [now apply at_iff|]; split; [now apply at_iff|reflexivity]]. }
    rewrite !W. split.
    - intros [(I & M & L & ->)|(I & M & L & ->)]; [left|right]; (split; [exact I|]); (split; [now apply metas_spec|]); auto.
    - intros [(I & M & -> & L)|(I & M & -> & L)]; [left|right]; (split; [exact I|]); (split; [now apply metas_spec|]); auto.
  Qed.
End Main.
(** * Theorems *)
(** The footpaths of a feed: outgoing and incoming lists mirror each other, one entry for each target; exactly the pairs with a
    row in transfers.txt (in either direction; the row of the own direction wins) or near each other. *)
Theorem C74_footpaths :
  forall near_origin in_radius dist2 walk rows trows order,
  (forall a b, 0 <= walk a b) -> Forall TRange trows -> NoDup order -> (forall x, In x order <-> IsStop rows x) ->
  let f := read_stops near_origin in_radius dist2 walk rows trows order in
  (forall a b d, In (b, d) (f_out f a) <-> In (a, d) (f_in f b)) /\
  (forall a, NoDup (map fst (f_out f a))) /\
  (forall a b d, In (b, d) (f_out f a) -> Foot near_origin in_radius dist2 walk rows trows a b d) /\
  (forall a b, (exists d, Foot near_origin in_radius dist2 walk rows trows a b d) -> exists d, In (b, d) (f_out f a)).
Proof.
  intros near_origin in_radius dist2 walk rows trows order WP TR ND OI f.
  pose proof (out_in near_origin in_radius dist2 walk rows trows order TR ND) as OUT. pose proof (in_in near_origin in_radius dist2 walk rows trows order TR ND) as IN'.
  pose proof (given_o1 rows trows order TR OI) as GO. pose proof (near_o3 near_origin in_radius dist2 walk rows order OI) as NO.
  cbv zeta in *. fold f in OUT, IN'.
  set (st := read_rows rows) in *. set (tf := read_transfers st trows) in *. set (o1 := ops1 tf order) in *. set (o2 := ops2 tf order) in *. set (o3 := ops3 near_origin in_radius dist2 walk st order) in *.
  assert (O2 : forall a b d, In (a, b, d) o2 <-> In (b, a, d) o1) by (intros a b d; apply (o1_o2 rows trows order)).
  assert (SMALL : forall s x m, Near near_origin in_radius dist2 walk rows s x m -> fp_minutes m = m).
  { intros s x m (_ & _ & (cs & cx & _ & _ & ->) & L). specialize (WP cs cx). unfold fp_minutes. destruct (Z.gtb_spec (walk cs cx) 511); [lia|]. rewrite Z.mod_small; lia. }
  split; [intros a b d; rewrite OUT, IN'; reflexivity|]. split; [|split].
  - intros a. unfold f. rewrite res_out by assumption. apply addops_nodup. constructor.
  - intros a b d H. apply OUT in H. destruct H as (d0 & F & ->). apply first_app in F. destruct F as [F|(N1 & F)].
    { apply F_given. apply GO. exists d0. split; [apply (first_in _ _ _ F)|reflexivity]. }
    assert (NG : forall d', ~ Given rows trows a b d') by (intros d' G; apply GO in G; destruct G as (x & I & _); now apply (N1 _ I)).
    apply first_app in F. destruct F as [F|(N2 & F)].
    { apply F_back; [exact NG|]. apply GO. exists d0. split; [apply O2; apply (first_in _ _ _ F)|reflexivity]. }
    apply F_near; [exact NG| |].
    + intros d' G. apply GO in G. destruct G as (x & I & _). apply O2 in I. now apply (N2 _ I).
    + apply first_in in F. destruct F as (I & _). apply NO in I. assert (E : fp_minutes d0 = d0) by (destruct I as [I|I]; now apply SMALL in I). now rewrite E.
  - intros a b (d & F).
    assert (X : exists d0, In (a, b, d0) (o1 ++ o2 ++ o3)).
    { destruct F as [G|_ G|_ _ N].
      - apply GO in G. destruct G as (x & I & _). exists x. apply in_or_app. now left.
      - apply GO in G. destruct G as (x & I & _). exists x. apply in_or_app. right. apply in_or_app. left. now apply O2.
      - exists d. apply in_or_app. right. apply in_or_app. right. apply NO. exact N. }
    destruct X as (d0 & I). destruct (first_exists _ (pair_dec a b) _ _ I eq_refl) as ([p m] & FO). pose proof (first_in _ _ _ FO) as (_ & E). cbn in E. subst p.
    exists (fp_minutes m). apply OUT. exists m. split; [exact FO|reflexivity].
Qed.
(** Footpaths exist in both directions. *)
Theorem C74_both_ways :
  forall near_origin in_radius dist2 walk rows trows order,
  (forall a b, 0 <= walk a b) -> Forall TRange trows -> NoDup order -> (forall x, In x order <-> IsStop rows x) ->
  let f := read_stops near_origin in_radius dist2 walk rows trows order in
  forall a b d, In (b, d) (f_out f a) -> exists d', In (a, d') (f_out f b).
Proof.
  intros near_origin in_radius dist2 walk rows trows order WP TR ND OI f a b d H.
  pose proof (out_in near_origin in_radius dist2 walk rows trows order TR ND) as OUT. pose proof (near_o3 near_origin in_radius dist2 walk rows order OI) as NO. cbv zeta in *. fold f in OUT.
  apply OUT in H. destruct H as (d0 & F & ->). apply first_in in F. destruct F as (I & _).
  assert (X : exists d1, In (b, a, d1) (ops1 (read_transfers (read_rows rows) trows) order ++ ops2 (read_transfers (read_rows rows) trows) order ++ ops3 near_origin in_radius dist2 walk (read_rows rows) order)).
  { rewrite !in_app_iff in I. exists d0. rewrite !in_app_iff. destruct I as [I|[I|I]].
    - right. left. now apply (o1_o2 rows trows order).
    - left. now apply (o1_o2 rows trows order) in I.
    - right. right. apply NO. apply NO in I. tauto. }
  destruct X as (d1 & J). destruct (first_exists _ (pair_dec b a) _ _ J eq_refl) as ([p m] & FO). pose proof (first_in _ _ _ FO) as (_ & E). cbn in E. subst p.
  exists (fp_minutes m). apply OUT. exists m. split; [exact FO|reflexivity].
Qed.
(** Equivalent stops. *)
Theorem C74_equivalences :
  forall near_origin in_radius dist2 walk rows trows order,
  (forall a b, 0 <= walk a b) -> Forall TRange trows -> NoDup order -> (forall x, In x order <-> IsStop rows x) ->
  let f := read_stops near_origin in_radius dist2 walk rows trows order in
  forall a, NoDup (f_eq f a) /\ forall b, In b (f_eq f a) <-> exists m, Near near_origin in_radius dist2 walk rows a b m.
Proof.
  intros near_origin in_radius dist2 walk rows trows order WP TR ND OI f a. unfold f. rewrite res_eq by assumption. destruct (smem a order) eqn:E.
  - apply smem_in in E. apply OI in E. destruct (metas_spec near_origin in_radius dist2 rows a E) as (A & B). split; [now apply NoDup_filter|]. intros b. rewrite filter_In, B, Z.leb_le. unfold Near. split.
    + intros (M & L). eexists. split; [exact E|]. split; [exact M|]. split; [|exact L]. exists (g_coord (st_get (read_rows rows) a)), (g_coord (st_get (read_rows rows) b)). split; [now apply (at_iff near_origin in_radius dist2)|]. split; [now apply (at_iff near_origin in_radius dist2)|reflexivity].
    + intros (m & _ & M & (cs & cx & X & Y & ->) & L). split; [exact M|]. apply (at_iff near_origin in_radius dist2) in X. apply (at_iff near_origin in_radius dist2) in Y. now subst.
  - split; [constructor|]. intros b. split; [intros []|]. intros (m & I & _). apply OI in I. apply smem_in in I. congruence.
Qed.
(** The time for a change at a stop: the least of its rows. *)
Theorem C74_transfer_times :
  forall rows trows default s, Forall TRange trows -> IsStop rows s ->
  let time := transfer_time (read_transfers (read_rows rows) trows) default s in
  ((forall r, In r trows -> ~ Row s s r) /\ time = default mod 256) \/
  (exists r, In r trows /\ Row s s r /\ (forall r', In r' trows -> Row s s r' -> t_time r / 60 <= t_time r' / 60) /\ time = t_time r / 60 mod 256).
Proof.
  intros rows trows default s TR IS time. pose proof (read_transfers_inv (st_keys (read_rows rows)) trows TR) as TI. fold (read_transfers (read_rows rows) trows) in TI.
  unfold time, transfer_time. destruct (tf_time _ s) as [m|] eqn:E.
  - right. apply (ti_some _ _ _ TI) in E. destruct E as (_ & (r & I & R & ->) & M). exists r. auto.
  - left. split; [|reflexivity]. intros r I. apply (ti_none _ _ _ TI s E); [|exact I]. now apply (ri_keys _ _ (read_rows_inv rows)).
Qed.
(** Stations: who is whose parent and child. *)
Theorem C74_stations :
  forall rows x, (In x (st_keys (read_rows rows)) <-> IsStop rows x) /\ (forall p, g_parent (st_get (read_rows rows) x) = Some p <-> Parent rows x p) /\
  (forall c, In c (g_children (st_get (read_rows rows) x)) <-> Child rows c x).
Proof.
  intros rows x. pose proof (read_rows_inv rows) as I. split; [apply (ri_keys _ _ I)|]. split; [intros p; symmetry; apply (ri_parent _ _ I)|intros c; apply (ri_children _ _ I)].
Qed.
(** Stay-seated transfers. *)
Theorem C74_stay_seated :
  forall rows trows, Forall TRange trows -> forall a b,
  In b (tf_seated (read_transfers (read_rows rows) trows) a) <-> exists r, In r trows /\ t_type r = 4 /\ t_ftrip r = Some a /\ t_ttrip r = Some b.
Proof. intros rows trows TR. exact (ti_seated _ _ _ (read_transfers_inv (st_keys (read_rows rows)) trows TR)). Qed.

(** * Examples *)
(** Coordinates are metres along a line. *)
Definition ex_dist2 (a b : nat) : Z := (Z.of_nat a - Z.of_nat b) * (Z.of_nat a - Z.of_nat b).
Definition ex_walk (a b : nat) : Z := Z.max 2 (Z.abs (Z.of_nat a - Z.of_nat b) / 90).
Definition ex_radius (a b : nat) : bool := Z.abs (Z.of_nat a - Z.of_nat b) <=? 100.
Definition ex_row (id name coord : nat) (parent : option nat) : srow := {| r_type := 0; r_id := id; r_name := name; r_coord := coord; r_parent := parent |}.
Definition ex_rows : list srow := [ex_row 1 5 1000 None; ex_row 2 5 1400 None; ex_row 3 0 1850 (Some 2%nat); ex_row 4 7 5000 None]%nat.
Definition ex_trow (a b : nat) (type time : Z) : trow := {| t_from := a; t_to := b; t_type := type; t_time := time; t_ftrip := None; t_ttrip := None |}.
Definition ex_trows : list trow := [ex_trow 1 2 3 0; ex_trow 4 1 2 600; ex_trow 4 1 2 60; ex_trow 3 2 2 3600; ex_trow 1 1 2 300; ex_trow 1 1 2 180].
Definition ex_read := read_stops (fun c => Nat.eqb c 0) ex_radius ex_dist2 ex_walk ex_rows ex_trows [1; 2; 3; 4]%nat.
Example C74_example :
  f_out ex_read 1%nat = [(4%nat, 10); (1%nat, 2); (2%nat, 4); (3%nat, 9)] /\ f_out ex_read 3%nat = [(2%nat, 60); (1%nat, 9); (3%nat, 2)] /\ f_out ex_read 2%nat = [(3%nat, 60); (1%nat, 4); (2%nat, 2)] /\
  f_out ex_read 4%nat = [(1%nat, 10); (4%nat, 2)] /\ transfer_time (read_transfers (read_rows ex_rows) ex_trows) 2 1 = 3 /\
  Forall TRange ex_trows /\ (forall a b, 0 <= ex_walk a b) /\ (forall x, In x [1; 2; 3; 4]%nat <-> IsStop ex_rows x).
Proof.
  do 5 (split; [vm_compute; reflexivity|]). split; [|split].
  - repeat (apply Forall_cons; [unfold TRange; cbn; lia|]). apply Forall_nil.
  - intros a b. unfold ex_walk. lia.
  - intros x. rewrite <- (ri_keys _ _ (read_rows_inv ex_rows)). reflexivity.
Qed.
(** A row that forbids the transfer from 1 to 2 does not prevent a footpath between them. *)
Theorem C74_forbidden_transfer_refuted :
  exists rows trows order a b r, Forall TRange trows /\ NoDup order /\ (forall x, In x order <-> IsStop rows x) /\
  In r trows /\ t_from r = a /\ t_to r = b /\ t_type r = 3 /\ a <> b /\
  exists d, In (b, d) (f_out (read_stops (fun c => Nat.eqb c 0) ex_radius ex_dist2 ex_walk rows trows order) a).
Proof.
  exists ex_rows, ex_trows, [1; 2; 3; 4]%nat, 1%nat, 2%nat, (ex_trow 1 2 3 0). destruct C74_example as (_ & _ & _ & _ & _ & A & _ & B).
  split; [exact A|]. split; [repeat constructor; cbn; intuition discriminate|]. split; [exact B|]. split; [now left|]. split; [reflexivity|]. split; [reflexivity|]. split; [reflexivity|]. split; [discriminate|].
  assert (E' : f_out (read_stops (fun c => Nat.eqb c 0) ex_radius ex_dist2 ex_walk ex_rows ex_trows [1; 2; 3; 4]%nat) 1%nat = [(4%nat, 10); (1%nat, 2); (2%nat, 4); (3%nat, 9)]) by (vm_compute; reflexivity).
  exists 4. rewrite E'. right. right. now left.
Qed.
(** Equivalence is not symmetric: the platforms of a namesake are equivalent to a stop, but not the other way round. *)
Theorem C74_equivalence_one_way_refuted :
  exists rows trows order a b, Forall TRange trows /\ NoDup order /\ (forall x, In x order <-> IsStop rows x) /\
  let f := read_stops (fun c => Nat.eqb c 0) ex_radius ex_dist2 ex_walk rows trows order in In b (f_eq f a) /\ ~ In a (f_eq f b).
Proof.
  exists ex_rows, ex_trows, [1; 2; 3; 4]%nat, 1%nat, 3%nat. destruct C74_example as (_ & _ & _ & _ & _ & A & _ & B).
  split; [exact A|]. split; [repeat constructor; cbn; intuition discriminate|]. split; [exact B|]. cbv zeta.
  assert (E1 : f_eq (read_stops (fun c => Nat.eqb c 0) ex_radius ex_dist2 ex_walk ex_rows ex_trows [1; 2; 3; 4]%nat) 1%nat = [1; 2; 3]%nat) by (vm_compute; reflexivity). assert (E3 : f_eq (read_stops (fun c => Nat.eqb c 0) ex_radius ex_dist2 ex_walk ex_rows ex_trows [1; 2; 3; 4]%nat) 3%nat = [3; 2]%nat) by (vm_compute; reflexivity). rewrite E1, E3. split; [right; right; now left|intros [X|[X|[]]]; discriminate X].
Qed.
