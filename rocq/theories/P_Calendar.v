(** C10 (weekly calendars) and C11 (exceptions). *)
From Coq Require Import ZArith List Bool String Lia.
From Verif Require Import Time_Model Calendar_Model.
Import ListNotations.
Local Open Scope Z_scope.

(** * Specification *)
(** The flag of the day of the week of [d] in a calendar row (1970-01-01 = day 0 was a Thursday). *)
Definition runs_on_weekday (e : calendar_row) (d : Z) : Prop :=
  match d mod 7 with
  | 0 => thursday e | 1 => friday e | 2 => saturday e | 3 => sunday e
  | 4 => monday e | 5 => tuesday e | _ => wednesday e
  end = 1.
(** The row is valid on the calendar day [d]: within the inclusive date range; if the feed's publication end
    is the last day of the row, the row is taken to go on for ever. *)
Definition row_covers (e : calendar_row) (feed_end : option Z) (d : Z) : Prop :=
  start_date e <= d /\ (d <= end_date e \/ feed_end = Some (end_date e)).

(** * C10 *)
Lemma calendar_loop_spec c n : forall d to bit b i, 0 <= bit -> kMaxDays - bit <= Z.of_nat n ->
  calendar_loop n c d to bit b i =
  if (bit <=? i) && (i <? kMaxDays) && (d + (i - bit) <? to) then c_week_days c (weekday (d + (i - bit))) else b i.
Proof.
  induction n as [|n IH]; intros d to bit b i Hb Hn; cbn [calendar_loop].
  - destruct (Z.leb_spec bit i), (Z.ltb_spec i kMaxDays); cbn; auto; lia.
  - destruct ((d <? to) && (bit <? kMaxDays)) eqn:E.
    + apply andb_true_iff in E. destruct E as [E1 E2]. apply Z.ltb_lt in E1, E2.
      rewrite IH by lia. unfold bf_set.
      replace (d + 1 + (i - (bit + 1))) with (d + (i - bit)) by lia.
      destruct (Z.eqb_spec i bit) as [->|Hne].
      * replace (bit + 1 <=? bit) with false by (symmetry; apply Z.leb_gt; lia). cbn [andb].
        rewrite Z.leb_refl. replace (d + (bit - bit)) with d by lia.
        rewrite (proj2 (Z.ltb_lt _ _) E1), (proj2 (Z.ltb_lt _ _) E2). reflexivity.
      * replace (bit + 1 <=? i) with (bit <=? i); [reflexivity|].
        destruct (Z.leb_spec bit i), (Z.leb_spec (bit + 1) i); auto; lia.
    + apply andb_false_iff in E.
      destruct (Z.leb_spec bit i), (Z.ltb_spec i kMaxDays), (Z.ltb_spec (d + (i - bit)) to); cbn; auto.
      destruct E as [E|E]; apply Z.ltb_ge in E; lia.
Qed.

Lemma weekday_flag e d : c_week_days (read_calendar_row e) (weekday d) = true <-> runs_on_weekday e d.
Proof.
  unfold runs_on_weekday, weekday, read_calendar_row, c_week_days.
  assert (Hm := Z.mod_pos_bound d 7 ltac:(lia)).
  rewrite <- (Z.add_mod_idemp_l d 4 7) by lia.
  assert (H : d mod 7 = 0 \/ d mod 7 = 1 \/ d mod 7 = 2 \/ d mod 7 = 3 \/ d mod 7 = 4 \/ d mod 7 = 5 \/ d mod 7 = 6) by lia.
  destruct H as [->|[->|[->|[->|[->|[->| ->]]]]]]; cbn; apply Z.eqb_eq.
Qed.

Theorem C10_calendar_exact_days : forall (first last_excl : Z) (e : calendar_row) (feed_end : option Z) (i : Z),
  first <= last_excl -> 0 <= i < 512 ->
  bf_test (calendar_to_bitfield (mk_iv first last_excl) (read_calendar_row e) feed_end) i = true <->
  (first + i < last_excl /\ row_covers e feed_end (first + i) /\ runs_on_weekday e (first + i)).
Proof.
  intros f t e fe i Hft Hi. unfold bf_test, calendar_to_bitfield, row_covers.
  cbn [read_calendar_row c_interval iv_from iv_to].
  set (extend := match fe with Some x => x =? end_date e + 1 - 1 | None => false end).
  assert (Hext : extend = true <-> fe = Some (end_date e)).
  { unfold extend. destruct fe as [x|]; [|split; discriminate].
    rewrite Z.eqb_eq. split; [intros ->; f_equal; lia|intros [= ->]; lia]. }
  destruct (iv_overlaps _ _) eqn:Eo; cbn [negb andb].
  2: destruct extend eqn:Ex; cbn [negb].
  3: { split; [discriminate|]. intros (H1 & (H2 & [H3|H3]) & _).
       - unfold iv_overlaps in Eo. cbn in Eo. apply andb_false_iff in Eo. destruct Eo as [E|E]; apply Z.ltb_ge in E; lia.
       - apply Hext in H3. discriminate. }
  all: set (from := iv_clamp _ (start_date e)).
  all: assert (Hf0 : 0 <= from - f) by (unfold from, iv_clamp; cbn [iv_from iv_to];
         destruct (Z.ltb_spec (start_date e) f), (Z.ltb_spec t (start_date e)); lia).
  all: rewrite calendar_loop_spec by (try exact Hf0; unfold kMaxDays; lia).
  all: replace (from + (i - (from - f))) with (f + i) by lia.
  all: rewrite <- weekday_flag.
  all: assert (Hfrom : from <= f + i /\ f + i < t <-> start_date e <= f + i /\ f + i < t)
         by (unfold from, iv_clamp; cbn [iv_from iv_to];
            destruct (Z.ltb_spec (start_date e) f), (Z.ltb_spec t (start_date e)); lia).
  - assert (Hto : f + i < (if extend then t else iv_clamp (mk_iv f t) (end_date e + 1)) <->
                  f + i < t /\ (f + i <= end_date e \/ fe = Some (end_date e))).
    { destruct extend.
      - rewrite <- Hext. tauto.
      - assert (fe <> Some (end_date e)) by (intros H; apply Hext in H; discriminate).
        unfold iv_clamp. cbn [iv_from iv_to].
        destruct (Z.ltb_spec (end_date e + 1) f), (Z.ltb_spec t (end_date e + 1)); intuition lia. }
    destruct (Z.leb_spec (from - f) i), (Z.ltb_spec i kMaxDays), (Z.ltb_spec (f + i) (if extend then t else iv_clamp (mk_iv f t) (end_date e + 1)));
      cbn [andb]; unfold bf_empty, kMaxDays in *; split; intros H9; try discriminate; try lia;
      try (destruct H9 as (? & ? & ?); exfalso; lia).
    + apply Hto in H1. split; [tauto|]. split; [|exact H9]. split; [|tauto]. apply Hfrom. lia.
    + tauto.
    + exfalso. destruct H9 as (G1 & (G2 & G3) & _). apply Z.le_ngt in H1. apply H1, Hto. tauto.
  - destruct (Z.leb_spec (from - f) i), (Z.ltb_spec i kMaxDays), (Z.ltb_spec (f + i) t);
      cbn [andb]; unfold bf_empty, kMaxDays in *; split; intros H9; try discriminate; try lia;
      try (destruct H9 as (? & ? & ?); exfalso; lia).
    + split; [tauto|]. split; [|exact H9]. split; [|right; now apply Hext]. apply Hfrom. lia.
    + tauto.
Qed.

(** 2024-01-01 (Monday, day 19723) .. 2024-01-07, Mondays and Sundays only, timetable from 2023-12-31. *)
Example C10_nonvacuous :
  let e := mk_calendar_row 1 0 0 0 0 0 1 19723 19729 in
  filter (bf_test (calendar_to_bitfield (mk_iv 19722 19740) (read_calendar_row e) None)) (map Z.of_nat (seq 0 20)) = [1; 7] /\
  filter (bf_test (calendar_to_bitfield (mk_iv 19722 19740) (read_calendar_row e) (Some 19729))) (map Z.of_nat (seq 0 20))
    = [1; 7; 8; 14; 15].
Proof. split; vm_compute; reflexivity. Qed.

(** * C11 *)
(** The last row of calendar_dates.txt for service [n] and calendar day [d] is of type [ty]. *)
Definition last_exception (rows : list exception_row) (n : string) (d ty : Z) : Prop :=
  exists before after e, rows = before ++ e :: after /\ ex_service e = n /\ ex_date e = d /\ ex_type e = ty /\
    forall e', In e' after -> ~ (ex_service e' = n /\ ex_date e' = d).
Definition no_exception (rows : list exception_row) (n : string) (d : Z) : Prop :=
  forall e, In e rows -> ~ (ex_service e = n /\ ex_date e = d).

Lemma smap_find_update {A} (m : smap A) k k' dflt f :
  smap_find (smap_update m k dflt f) k' =
  if String.eqb k' k then Some (f (match smap_find m k with Some v => v | None => dflt end)) else smap_find m k'.
Proof.
  induction m as [|[x v] m IH]; cbn.
  - destruct (String.eqb_spec k' k); auto.
  - destruct (String.eqb_spec k x) as [->|Hkx]; cbn.
    + destruct (String.eqb_spec k' x); auto.
    + destruct (String.eqb_spec k' x) as [->|Hk'x]; cbn.
      * destruct (String.eqb_spec x k); congruence.
      * apply IH.
Qed.

(** Key sets of the maps stay duplicate free. *)
Lemma smap_update_keys {A} (m : smap A) k dflt f : NoDup (map fst m) -> NoDup (map fst (smap_update m k dflt f)) /\
  forall x, In x (map fst (smap_update m k dflt f)) <-> In x (map fst m) \/ x = k.
Proof.
  induction m as [|[x v] m IH]; cbn; intros H.
  - split; [constructor; auto; constructor|]. intuition.
  - inversion H as [|? ? Hni Hnd]; subst. destruct (String.eqb_spec k x) as [->|Hkx]; cbn.
    + split; auto. intros y. split; [tauto|]. intros [?|H1]; [auto|left; congruence].
    + destruct (IH Hnd) as [I1 I2]. split.
      * constructor; auto. rewrite I2. intros [?|?]; [tauto|congruence].
      * intros y. rewrite I2. tauto.
Qed.

Lemma smap_find_in {A} (m : smap A) k : NoDup (map fst m) -> forall v, smap_find m k = Some v <-> In (k, v) m.
Proof.
  induction m as [|[x w] m IH]; cbn; intros H v; [split; [discriminate|tauto]|].
  inversion H as [|? ? Hni Hnd]; subst. destruct (String.eqb_spec k x) as [->|Hkx].
  - split; [intros [= ->]; auto|]. intros [[= ->]|Hin]; auto. exfalso. apply Hni. apply in_map_iff. exists (x, v). auto.
  - rewrite (IH Hnd). split; [auto|]. intros [[= E ?]|?]; [congruence|auto].
Qed.

Definition rows_of (rows : list exception_row) (n : string) : list calendar_date :=
  map read_exception_row (filter (fun e => String.eqb (ex_service e) n) rows).
Lemma read_calendar_date_spec rows :
  NoDup (map fst (read_calendar_date rows)) /\
  forall n, smap_find (read_calendar_date rows) n = match rows_of rows n with [] => None | l => Some l end.
Proof.
  unfold read_calendar_date.
  assert (G : forall m, NoDup (map fst m) ->
    let m' := fold_left (fun m e => smap_update m (ex_service e) [] (fun l => l ++ [read_exception_row e])) rows m in
    NoDup (map fst m') /\
    forall n, smap_find m' n =
       match rows_of rows n with [] => smap_find m n
       | l => Some (match smap_find m n with Some l0 => l0 | None => [] end ++ l) end).
  { induction rows as [|e rows IH]; intros m Hm; cbn [fold_left]; [split; auto|].
    destruct (smap_update_keys m (ex_service e) [] (fun l => l ++ [read_exception_row e]) Hm) as [K _].
    destruct (IH _ K) as [I1 I2]. split; auto. intros n. rewrite I2, smap_find_update.
    unfold rows_of. cbn [filter]. fold (rows_of rows n). rewrite (String.eqb_sym n).
    destruct (String.eqb_spec (ex_service e) n) as [<-|Hne]; cbn [map].
    - destruct (rows_of rows (ex_service e)) eqn:Er; unfold rows_of in Er; rewrite Er.
      + reflexivity.
      + rewrite <- app_assoc. reflexivity.
    - reflexivity. }
  destruct (G [] (NoDup_nil _)) as [G1 G2]. split; [exact G1|]. intros n. rewrite G2. cbn. now destruct (rows_of rows n).
Qed.

Lemma merge_base tt fe base : NoDup (map fst base) -> forall s0 : smap bitfield, NoDup (map fst s0) ->
  let s := fold_left (fun s (e : string * calendar) =>
             smap_update s (fst e) bf_empty (fun _ => calendar_to_bitfield tt (snd e) fe)) base s0 in
  NoDup (map fst s) /\
  forall n, smap_find s n = match smap_find base n with Some c => Some (calendar_to_bitfield tt c fe) | None => smap_find s0 n end.
Proof.
  induction base as [|[k c] base IH]; intros Hb s0 Hs0; cbn [fold_left]; [split; auto|].
  inversion Hb as [|? ? Hni Hnd]; subst. cbn [fst snd] in *.
  destruct (smap_update_keys s0 k bf_empty (fun _ => calendar_to_bitfield tt c fe) Hs0) as [K _].
  destruct (IH Hnd _ K) as [I1 I2]. split; auto. intros n. rewrite I2, smap_find_update. cbn [smap_find].
  destruct (String.eqb_spec n k) as [->|Hne]; auto.
  destruct (smap_find base k) eqn:E; auto. exfalso. apply Hni. apply (smap_find_in _ _ Hnd) in E.
  apply in_map_iff. exists (k, c0). auto.
Qed.

Definition apply_exceptions (tt : interval) (b : bitfield) (l : list calendar_date) : bitfield :=
  fold_left (fun b e => add_exception tt e b) l b.

Lemma merge_one tt k l : forall s : smap bitfield, NoDup (map fst s) ->
  let s' := fold_left (fun s day => smap_update s k bf_empty (add_exception tt day)) l s in
  NoDup (map fst s') /\
  forall n, smap_find s' n = if String.eqb n k && negb (match l with [] => true | _ => false end)
       then Some (apply_exceptions tt (match smap_find s k with Some b => b | None => bf_empty end) l)
       else smap_find s n.
Proof.
  induction l as [|e l IH]; intros s Hs; cbn [fold_left].
  - split; auto. intros n. now rewrite andb_false_r.
  - destruct (smap_update_keys s k bf_empty (add_exception tt e) Hs) as [K _].
    destruct (IH _ K) as [I1 I2]. split; auto. intros n. rewrite I2, !smap_find_update, String.eqb_refl, andb_true_r.
    destruct (String.eqb_spec n k) as [->|Hne]; cbn [andb]; auto.
    destruct l; cbn [negb]; reflexivity.
Qed.

Lemma merge_all tt ex : NoDup (map fst ex) -> (forall k l, In (k, l) ex -> l <> []) -> forall s : smap bitfield, NoDup (map fst s) ->
  let s' := fold_left (fun s (e : string * list calendar_date) =>
               fold_left (fun s day => smap_update s (fst e) bf_empty (add_exception tt day)) (snd e) s) ex s in
  forall n, smap_find s' n =
    match smap_find ex n with
    | Some l => Some (apply_exceptions tt (match smap_find s n with Some b => b | None => bf_empty end) l)
    | None => smap_find s n
    end.
Proof.
  induction ex as [|[k l] ex IH]; intros Hnd Hne s Hs; cbn [fold_left]; auto.
  inversion Hnd as [|? ? Hni Hnd']; subst. cbn [fst snd] in *.
  destruct (merge_one tt k l s Hs) as [K1 K2]. cbv zeta in K1, K2.
  intros n. rewrite (IH Hnd' ltac:(intros; eapply Hne; right; eauto) _ K1). cbn [smap_find]. rewrite K2.
  assert (Hl : l <> []) by (apply (Hne k); left; reflexivity).
  destruct (String.eqb_spec n k) as [->|Hnk]; cbn [andb].
  - destruct (smap_find ex k) eqn:E.
    + exfalso. apply Hni. apply (smap_find_in _ _ Hnd') in E. apply in_map_iff. exists (k, l0). auto.
    + destruct l; [congruence|]. reflexivity.
  - reflexivity.
Qed.

Lemma apply_exceptions_spec tt n d : 0 <= d - iv_from tt < kMaxDays -> forall rows b,
  (no_exception rows n d /\ apply_exceptions tt b (rows_of rows n) (d - iv_from tt) = b (d - iv_from tt)) \/
  (exists ty, last_exception rows n d ty /\ apply_exceptions tt b (rows_of rows n) (d - iv_from tt) = (ty =? 1)).
Proof.
  intros Hd. induction rows as [|e rows IH]; intros b.
  - left. split; auto. intros e [].
  - assert (Hother : ~ (ex_service e = n /\ ex_date e = d) -> forall b',
      b' (d - iv_from tt) = b (d - iv_from tt) ->
      (no_exception (e :: rows) n d /\ apply_exceptions tt b' (rows_of rows n) (d - iv_from tt) = b (d - iv_from tt)) \/
      (exists ty, last_exception (e :: rows) n d ty /\ apply_exceptions tt b' (rows_of rows n) (d - iv_from tt) = (ty =? 1))).
    { intros Hn b' Hb'. destruct (IH b') as [[H1 H2]|(ty & (bf & af & x & -> & H1) & H2)].
      - left. split; [|congruence]. intros x [<-|Hx]; auto.
      - right. exists ty. split; auto. exists (e :: bf), af, x. split; auto. }
    unfold rows_of in *. cbn [filter].
    destruct (String.eqb_spec (ex_service e) n) as [En|En].
    2: { apply Hother; [tauto|reflexivity]. }
    cbn [map apply_exceptions fold_left].
    destruct (Z.eq_dec (ex_date e) d) as [Ed|Ed].
    + destruct (IH (add_exception tt (read_exception_row e) b)) as [[H1 H2]|(ty & (bf & af & x & -> & H1) & H2)].
      * right. exists (ex_type e). split.
        { exists [], rows, e. split; [reflexivity|]. repeat (split; [auto|]). exact H1. }
        unfold apply_exceptions in H2. rewrite H2. unfold add_exception, read_exception_row. cbn [cd_day cd_add].
        rewrite Ed. replace (d - iv_from tt <? 0) with false by lia.
        replace (d - iv_from tt >=? kMaxDays) with false by lia. cbn [orb]. unfold bf_set. now rewrite Z.eqb_refl.
      * right. exists ty. split; auto. exists (e :: bf), af, x. split; auto.
    + apply Hother; [tauto|]. unfold add_exception, read_exception_row. cbn [cd_day cd_add].
      destruct (_ || _); auto. unfold bf_set. destruct (Z.eqb_spec (d - iv_from tt) (ex_date e - iv_from tt)); auto. lia.
Qed.

(** [base]: the parsed calendar.txt (at most one row per service id), [rows]: calendar_dates.txt in file order.
    For a service and a calendar day [first + i]: the last exception decides, else the weekly calendar. *)
Theorem C11_exceptions_override_last_wins :
  forall (first last_excl : Z) (base : list (string * calendar_row)) (rows : list exception_row) (feed_end : option Z)
         (n : string) (i : Z),
  NoDup (map fst base) -> 0 <= i < 512 ->
  let services := merge_traffic_days (mk_iv first last_excl)
                    (map (fun e => (fst e, read_calendar_row (snd e))) base) (read_calendar_date rows) feed_end in
  let runs := match smap_find services n with Some b => bf_test b i | None => false end in
  (forall ty, last_exception rows n (first + i) ty -> runs = (ty =? 1)) /\
  (no_exception rows n (first + i) ->
     runs = match smap_find base n with
            | Some e => bf_test (calendar_to_bitfield (mk_iv first last_excl) (read_calendar_row e) feed_end) i
            | None => false
            end) /\
  (smap_find services n <> None <-> (In n (map fst base) \/ exists e, In e rows /\ ex_service e = n)).
Proof.
  intros f t base rows fe n i Hnd Hi services runs.
  set (tt := mk_iv f t) in *.
  set (base' := map (fun e : string * calendar_row => (fst e, read_calendar_row (snd e))) base) in *.
  assert (Hk : map fst base' = map fst base) by (unfold base'; rewrite map_map; reflexivity).
  assert (Hnd' : NoDup (map fst base')) by (rewrite Hk; exact Hnd).
  assert (Hfb : smap_find base' n = match smap_find base n with Some e => Some (read_calendar_row e) | None => None end).
  { unfold base'. clear. induction base as [|[k e] base IH]; cbn; auto. destruct (String.eqb n k); auto. }
  destruct (merge_base tt fe base' Hnd' [] (NoDup_nil _)) as [B1 B2]. cbv zeta in B1, B2.
  destruct (read_calendar_date_spec rows) as [R1 R2].
  assert (Rne : forall k l, In (k, l) (read_calendar_date rows) -> l <> []).
  { intros k l Hin. apply (smap_find_in _ _ R1) in Hin. rewrite R2 in Hin. destruct (rows_of rows k); [discriminate|].
    injection Hin as <-. discriminate. }
  pose proof (merge_all tt _ R1 Rne _ B1) as M. cbv zeta in M.
  assert (Es : smap_find services n =
     match rows_of rows n with
     | [] => match smap_find base n with Some e => Some (calendar_to_bitfield tt (read_calendar_row e) fe) | None => None end
     | l => Some (apply_exceptions tt (match smap_find base n with Some e => calendar_to_bitfield tt (read_calendar_row e) fe
                                                                 | None => bf_empty end) l)
     end).
  { unfold services, merge_traffic_days. rewrite M, R2, B2, Hfb.
    destruct (rows_of rows n); destruct (smap_find base n); reflexivity. }
  assert (Er : runs = apply_exceptions tt (match smap_find base n with Some e => calendar_to_bitfield tt (read_calendar_row e) fe
                                                                 | None => bf_empty end) (rows_of rows n) i).
  { unfold runs. rewrite Es. destruct (rows_of rows n); destruct (smap_find base n); reflexivity. }
  set (b0 := match smap_find base n with Some e => _ | None => _ end) in Er.
  pose proof (apply_exceptions_spec tt n (f + i) ltac:(cbn; unfold kMaxDays; lia) rows b0) as A.
  change (iv_from tt) with f in A. replace (f + i - f) with i in A by lia. rewrite <- Er in A.
  split; [|split].
  - intros ty (bf & af & e & -> & H1 & H2 & H3 & H4).
    destruct A as [[A _]|(ty' & (bf' & af' & e' & E & H1' & H2' & H3' & H4') & A)].
    + exfalso. apply (A e); auto. apply in_or_app. right. left. reflexivity.
    + rewrite A. f_equal. subst ty ty'.
      assert (e = e').
      { clear - E H1 H2 H4 H1' H2' H4'.
        revert bf' E. induction bf as [|x bf IH]; intros [|y bf'] E; cbn in E; injection E as E0 E.
        - congruence.
        - exfalso. subst y. apply (H4 e'); auto. rewrite E. apply in_or_app. right. left. reflexivity.
        - exfalso. subst x. apply (H4' e); auto. rewrite <- E. apply in_or_app. right. left. reflexivity.
        - now apply IH with bf'. }
      congruence.
  - intros Hno. destruct A as [[_ A]|(ty' & (bf' & af' & e' & E & H1' & H2' & H3' & H4') & A)].
    + rewrite A. unfold b0. destruct (smap_find base n); reflexivity.
    + exfalso. apply (Hno e'); auto. subst rows. apply in_or_app. right. left. reflexivity.
  - rewrite Es.
    assert (Hb : smap_find base n <> None <-> In n (map fst base)).
    { clear. induction base as [|[k e] base IH]; cbn; [tauto|].
      destruct (String.eqb_spec n k) as [->|Hne]; [split; [auto|discriminate]|].
      rewrite IH. split; [auto|]. intros [?|?]; [congruence|auto]. }
    assert (Hr : rows_of rows n <> [] <-> exists e, In e rows /\ ex_service e = n).
    { unfold rows_of. clear. induction rows as [|e rows IH]; cbn.
      - split; [tauto|]. intros (e & [] & _).
      - destruct (String.eqb_spec (ex_service e) n) as [En|En]; cbn.
        + split; [|discriminate]. intros _. exists e. auto.
        + rewrite IH. split; intros (x & H1 & H2); exists x; [auto|]. destruct H1 as [->|H1]; [congruence|auto]. }
    rewrite <- Hb, <- Hr. destruct (rows_of rows n); destruct (smap_find base n); intuition congruence.
Qed.

Example C11_nonvacuous :
  let rows := [mk_exception_row "a" 19723 2; mk_exception_row "b" 19724 1; mk_exception_row "a" 19725 1;
               mk_exception_row "a" 19723 1; mk_exception_row "a" 19729 2; mk_exception_row "a" 19600 1]%string in
  let base := [("a"%string, mk_calendar_row 1 0 0 0 0 0 1 19723 19729)] in
  let s := merge_traffic_days (mk_iv 19722 19740) (map (fun e => (fst e, read_calendar_row (snd e))) base)
             (read_calendar_date rows) None in
  let days n := match smap_find s n with Some b => filter (bf_test b) (map Z.of_nat (seq 0 20)) | None => [-1] end in
  days "a"%string = [1; 3] /\ days "b"%string = [2] /\ days "c"%string = [-1] /\
  last_exception rows "a" 19723 1 /\ no_exception rows "a" 19724.
Proof.
  split; [vm_compute; reflexivity|]. split; [vm_compute; reflexivity|]. split; [vm_compute; reflexivity|]. split.
  - exists [mk_exception_row "a" 19723 2; mk_exception_row "b" 19724 1; mk_exception_row "a" 19725 1],
      [mk_exception_row "a" 19729 2; mk_exception_row "a" 19600 1], (mk_exception_row "a" 19723 1).
    split; [reflexivity|]. do 3 (split; [reflexivity|]).
    intros e' [<-|[<-|[]]] [_ H]; cbn in H; lia.
  - intros e' He [H1 H2]. cbn in He. decompose [or] He; subst; try contradiction; cbn in *; try lia; try discriminate.
Qed.

Print Assumptions C10_calendar_exact_days.
Print Assumptions C11_exceptions_override_last_wins.
