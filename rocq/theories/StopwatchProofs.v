(** Proofs about the timing file: calendar, order of names. *)
From Coq Require Import Reals.
From Verif Require Import Base ListLemmas Strings StopwatchModel StopwatchSpec.
Set Implicit Arguments.
Local Open Scope Z_scope.
Local Open Scope list_scope.

(** *** Calendar *)
Lemma year_step y : leap_days (y + 1) - leap_days y = if leap y then 1 else 0.
Proof.
  unfold leap_days, leap. replace (y + 1 - 1) with y by lia.
  destruct (Z.eqb_spec (y mod 4) 0), (Z.eqb_spec (y mod 100) 0), (Z.eqb_spec (y mod 400) 0); cbn [andb orb negb];
    Z.to_euclidean_division_equations; lia.
Qed.
Lemma year_length_pos y : 365 <= year_length y <= 366.
Proof. unfold year_length. destruct leap; lia. Qed.

Lemma find_year_spec f : forall y d, 0 <= d < 365 * Z.of_nat f ->
  let '(y', d') := find_year f y d in
  y <= y' /\ 0 <= d' < year_length y' /\ d = 365 * (y' - y) + (leap_days y' - leap_days y) + d'.
Proof.
  induction f as [|f IH]; intros y d Hd; [lia|]. cbn [find_year]. pose proof (year_length_pos y).
  destruct (Z.ltb_spec d (year_length y)) as [H1|H1].
  - repeat split; lia.
  - specialize (IH (y + 1) (d - year_length y) ltac:(lia)). destruct (find_year f (y + 1) (d - year_length y)) as (y' & d').
    destruct IH as (I1 & I2 & I3). pose proof (year_step y) as E. unfold year_length in I3 at 1. destruct (leap y); repeat split; lia.
Qed.
Lemma find_year_mono f : forall g y d e, 0 <= d < e -> d < 365 * Z.of_nat f -> e < 365 * Z.of_nat g ->
  let '(y1, d') := find_year f y d in let '(y2, e') := find_year g y e in y1 < y2 \/ y1 = y2 /\ d' < e'.
Proof.
  induction f as [|f IH]; intros [|g] y d e H Hd He; try lia. cbn [find_year]. pose proof (year_length_pos y).
  destruct (Z.ltb_spec d (year_length y)) as [H1|H1], (Z.ltb_spec e (year_length y)) as [H2|H2]; try lia.
  - pose proof (@find_year_spec g (y + 1) (e - year_length y) ltac:(lia)) as Hs.
    destruct (find_year g (y + 1) (e - year_length y)) as (y2 & e'). left. lia.
  - apply (IH g (y + 1) (d - year_length y) (e - year_length y)); lia.
Qed.

Lemma find_month_spec ls : forall m d, Forall (fun l => 0 < l) ls -> 0 <= d < fold_right Z.add 0 ls ->
  let '(m', d') := find_month ls m d in
  exists k, m' = m + Z.of_nat k /\ (k < List.length ls)%nat /\ 0 <= d' < nth k ls 0 /\ d = fold_right Z.add 0 (firstn k ls) + d'.
Proof.
  induction ls as [|l ls IH]; intros m d Hl Hd; cbn [fold_right] in Hd; [lia|]. inversion_clear Hl as [|? ? Hp Hr]. cbn [find_month].
  destruct (Z.ltb_spec d l) as [H|H].
  - exists 0%nat. cbn. repeat split; lia.
  - specialize (IH (m + 1) (d - l) Hr ltac:(lia)). destruct (find_month ls (m + 1) (d - l)) as (m' & d').
    destruct IH as (k & E1 & E2 & E3 & E4). exists (S k). cbn [List.length nth firstn fold_right]. repeat split; try lia.
Qed.
Lemma find_month_le ls : forall m d, Forall (fun l => 0 < l) ls -> m <= fst (find_month ls m d).
Proof.
  induction ls as [|l ls IH]; intros m d Hl; cbn [find_month]; [cbn; lia|]. inversion_clear Hl as [|? ? Hp Hr].
  destruct (Z.ltb_spec d l); [cbn; lia|]. specialize (IH (m + 1) (d - l) Hr). lia.
Qed.
Lemma find_month_mono ls : forall m d e, Forall (fun l => 0 < l) ls -> 0 <= d < e ->
  let '(m1, d') := find_month ls m d in let '(m2, e') := find_month ls m e in m1 < m2 \/ m1 = m2 /\ d' < e'.
Proof.
  induction ls as [|l ls IH]; intros m d e Hl H; cbn [find_month]; [right; lia|]. inversion_clear Hl as [|? ? Hp Hr].
  destruct (Z.ltb_spec d l) as [H1|H1], (Z.ltb_spec e l) as [H2|H2]; try lia.
  - pose proof (@find_month_le ls (m + 1) (e - l) Hr) as Hm. destruct (find_month ls (m + 1) (e - l)) as (m2 & e').
    cbn in Hm. left. lia.
  - apply (IH (m + 1) (d - l) (e - l)); auto; lia.
Qed.

Lemma months_pos y : Forall (fun l => 0 < l) (month_lengths y).
Proof. unfold month_lengths. destruct leap; repeat constructor. Qed.
Lemma months_sum y : fold_right Z.add 0 (month_lengths y) = year_length y.
Proof. unfold month_lengths, year_length. destruct leap; reflexivity. Qed.
Lemma months_nth y k : (k < 12)%nat -> nth k (month_lengths y) 0 = days_in_month y (Z.of_nat (S k)).
Proof.
  intros H. unfold month_lengths, days_in_month, leap. rewrite (orb_comm (y mod 400 =? 0)).
  destruct k as [|[|[|[|[|[|[|[|[|[|[|[|k]]]]]]]]]]]]; try reflexivity. lia.
Qed.
Lemma months_before y k : (k < 12)%nat -> fold_right Z.add 0 (firstn k (month_lengths y)) = days_before_month y (1 + Z.of_nat k).
Proof.
  intros H. unfold days_before_month. replace (Z.to_nat (1 + Z.of_nat k - 1)) with k by lia.
  assert (E : firstn k (month_lengths y) = map (fun j => days_in_month y (Z.of_nat j)) (seq 1 k)); [|now rewrite E].
  apply (nth_ext _ _ 0 (days_in_month y (Z.of_nat 0))).
  - rewrite firstn_length, map_length, seq_length. cbn [month_lengths List.length]. lia.
  - intros j Hj. rewrite firstn_length in Hj. cbn [month_lengths List.length] in Hj.
    rewrite (map_nth (fun i => days_in_month y (Z.of_nat i))), seq_nth by lia. cbn beta. change (1 + j)%nat with (S j).
    rewrite <- (@months_nth y j) by lia. rewrite <- (firstn_skipn k (month_lengths y)) at 2.
    rewrite app_nth1; [reflexivity|]. rewrite firstn_length. cbn [month_lengths List.length]. lia.
Qed.

Definition days_fuel (d : Z) : nat := S (Z.to_nat (d / 365)).
Lemma fuel_enough d : 0 <= d -> d < 365 * Z.of_nat (days_fuel d).
Proof.
  intros H. unfold days_fuel. pose proof (Z.div_pos d 365 H ltac:(lia)). rewrite Nat2Z.inj_succ, Z2Nat.id by lia.
  pose proof (Z.mul_succ_div_gt d 365 ltac:(lia)). lia.
Qed.

Lemma broken_down_ok t : 0 <= t -> exists_date (broken_down t) /\ instant_of (broken_down t) = t /\ 1970 <= tm_year (broken_down t).
Proof.
  intros Ht. unfold broken_down. set (days := t / 86400). assert (Hd : 0 <= days) by (apply Z.div_pos; lia).
  pose proof (@find_year_spec (days_fuel days) 1970 days (conj Hd (fuel_enough Hd))) as Hy. unfold days_fuel in Hy.
  destruct (find_year _ 1970 days) as (y & yd). destruct Hy as (Y1 & Y2 & Y3).
  pose proof (@find_month_spec (month_lengths y) 1 yd (months_pos y)) as Hm. rewrite months_sum in Hm. specialize (Hm Y2).
  destruct (find_month (month_lengths y) 1 yd) as (m & md). destruct Hm as (k & M1 & M2 & M3 & M4).
  cbn [month_lengths List.length] in M2. rewrite months_nth in M3 by lia. rewrite months_before in M4 by lia.
  replace (Z.of_nat (S k)) with m in M3 by lia. rewrite <- M1 in M4.
  unfold exists_date, instant_of, days_since_1970. cbn [tm_year tm_mon tm_mday tm_hour tm_min tm_sec].
  assert (Hr : 0 <= t mod 86400 < 86400) by (apply Z.mod_pos_bound; lia).
  assert (Ed : t = days * 86400 + t mod 86400) by (unfold days; pose proof (Z.div_mod t 86400 ltac:(lia)); lia).
  assert (Ek : 365 * (y - 1970) + (leap_days y - leap_days 1970) + days_before_month y m + (md + 1 - 1) = days) by lia.
  rewrite Ek. set (r := t mod 86400) in *. clearbody days r. clear -M1 M2 M3 Y1 Hr Ed.
  repeat split; try lia; try (apply Z.mod_pos_bound; lia); Z.to_euclidean_division_equations; lia.
Qed.

(** *** Lexicographic order of lists of numbers *)
Fixpoint lexlt (a b : list Z) : Prop :=
  match a, b with
  | x :: a, y :: b => x < y \/ x = y /\ lexlt a b
  | _, _ => False
  end.
Definition tm_list (b : tm) : list Z := [tm_year b; tm_mon b; tm_mday b; tm_hour b; tm_min b; tm_sec b].
Lemma lexlt_app a b x y : lexlt a b -> lexlt (a ++ x) (b ++ y).
Proof. revert b. induction a as [|u a IH]; intros [|v b]; cbn; try tauto. intros [H|[-> H]]; auto. Qed.
Lemma lexlt_same a x y : lexlt x y -> lexlt (a ++ x) (a ++ y).
Proof. intros H. induction a as [|u a IH]; cbn; auto. Qed.

Lemma broken_down_mono s t : 0 <= s < t -> lexlt (tm_list (broken_down s)) (tm_list (broken_down t)).
Proof.
  intros H. unfold broken_down.
  assert (Hs : 0 <= s / 86400) by (apply Z.div_pos; lia). assert (Ht : 0 <= t / 86400) by (apply Z.div_pos; lia).
  destruct (Z.eq_dec (s / 86400) (t / 86400)) as [E|E].
  - rewrite E. destruct (find_year _ 1970 (t / 86400)) as (y & yd). destruct (find_month (month_lengths y) 1 yd) as (m & md).
    unfold tm_list. cbn [tm_year tm_mon tm_mday tm_hour tm_min tm_sec lexlt].
    assert (Hr : s mod 86400 < t mod 86400) by (Z.to_euclidean_division_equations; lia).
    right; split; [reflexivity|]. right; split; [reflexivity|]. right; split; [reflexivity|].
    assert (B1 : 0 <= s mod 86400 < 86400) by (apply Z.mod_pos_bound; lia).
    assert (B2 : 0 <= t mod 86400 < 86400) by (apply Z.mod_pos_bound; lia).
    set (a := s mod 86400) in *. set (b := t mod 86400) in *. clearbody a b. clear -Hr B1 B2.
    Z.to_euclidean_division_equations; lia.
  - assert (Hd : s / 86400 < t / 86400) by (pose proof (Z.div_le_mono s t 86400); lia).
    pose proof (@find_year_mono (days_fuel (s / 86400)) (days_fuel (t / 86400)) 1970 _ _ (conj Hs Hd) (fuel_enough Hs) (fuel_enough Ht)) as Hy.
    pose proof (@find_year_spec (days_fuel (s / 86400)) 1970 _ (conj Hs (fuel_enough Hs))) as Sy.
    unfold days_fuel in Hy, Sy. destruct (find_year _ 1970 (s / 86400)) as (y1 & d1). destruct (find_year _ 1970 (t / 86400)) as (y2 & d2).
    destruct Hy as [Hy|[<- Hy]].
    + destruct (find_month (month_lengths y1) 1 d1), (find_month (month_lengths y2) 1 d2). cbn. left. exact Hy.
    + pose proof (@find_month_mono (month_lengths y1) 1 d1 d2 (months_pos y1) ltac:(lia)) as Hm.
      destruct (find_month (month_lengths y1) 1 d1) as (m1 & e1), (find_month (month_lengths y1) 1 d2) as (m2 & e2).
      cbn. right. split; [reflexivity|]. destruct Hm as [Hm|[-> Hm]]; [auto|]. right. split; [reflexivity|]. left. lia.
Qed.

(** *** Order of texts *)
Lemma before_irrefl a : ~ before a a.
Proof. induction a as [|x a IH]; cbn; [tauto|]. intros [H|[_ H]]; [lia|auto]. Qed.
Lemma before_asym a : forall b, before a b -> ~ before b a.
Proof. induction a as [|x a IH]; intros [|y b]; cbn; try tauto. intros [H|[-> H]] [H'|[E H']]; subst; try lia. now apply (IH b). Qed.
Lemma before_same p a b : before (p ++ a) (p ++ b) <-> before a b.
Proof.
  induction p as [|x p IH]; [tauto|]. cbn [app before]. rewrite IH. split; [|auto]. intros [H|[_ H]]; [lia|exact H].
Qed.
Lemma before_app a : forall b x y, List.length a = List.length b -> before a b -> before (a ++ x) (b ++ y).
Proof.
  induction a as [|c a IH]; intros [|d b] x y Hl; cbn; try tauto; try discriminate. intros [H|[-> H]]; auto.
Qed.

Definition digits (w : chars) : Prop := Forall (fun c => is_digit c = true) w.
Lemma undec_cons c s : undec (c :: s) = (digit_value c * 10 ^ N.of_nat (List.length s) + undec s)%N.
Proof.
  induction s as [|d s IH] using rev_ind.
  - cbn. lia.
  - change (c :: s ++ [d]) with ((c :: s) ++ [d]). rewrite !undec_snoc, IH, app_length. cbn [List.length].
    replace (N.of_nat (List.length s + 1)) with (N.succ (N.of_nat (List.length s))) by lia. rewrite N.pow_succ_r'. lia.
Qed.
Lemma digit_value_inj c d : is_digit c = true -> is_digit d = true -> digit_value c = digit_value d -> c = d.
Proof.
  unfold is_digit, digit_value. intros Hc Hd E. assert (E' : N_of_ascii c = N_of_ascii d) by lia.
  rewrite <- (ascii_N_embedding c), <- (ascii_N_embedding d). now rewrite E'.
Qed.
Lemma before_digits a : forall b, List.length a = List.length b -> digits a -> digits b -> (undec a < undec b)%N -> before a b.
Proof.
  induction a as [|c a IH]; intros [|d b] Hl Ha Hb Hlt; cbn [List.length] in Hl; try discriminate.
  inversion Ha; subst. inversion Hb; subst. rewrite !undec_cons in Hlt. injection Hl as Hl. rewrite Hl in Hlt.
  pose proof (@undec_bound a ltac:(assumption)) as B1. pose proof (@undec_bound b ltac:(assumption)) as B2. rewrite Hl in B1. cbn [before].
  destruct (N.lt_trichotomy (digit_value c) (digit_value d)) as [H|[H|H]].
  - left. unfold digit_value, is_digit in *. lia.
  - right. split; [now apply digit_value_inj|]. apply IH; auto. rewrite H in Hlt. lia.
  - exfalso. assert (digit_value d + 1 <= digit_value c)%N by lia.
    assert ((digit_value d + 1) * 10 ^ N.of_nat (List.length b) <= digit_value c * 10 ^ N.of_nat (List.length b))%N by (now apply N.mul_le_mono_r).
    lia.
Qed.

(** *** The stamp as words of digits *)
Fixpoint joined (ws : list chars) : chars :=
  match ws with [] => [] | [w] => w | w :: ws => w ++ dot :: joined ws end.
Lemma joined_cons w v ws : joined (w :: v :: ws) = w ++ dot :: joined (v :: ws).
Proof. reflexivity. Qed.
Lemma before_joined ws : forall vs e, Forall2 (fun w v => List.length w = List.length v /\ digits w /\ digits v) ws vs ->
  lexlt (map number ws) (map number vs) -> before (joined ws ++ e) (joined vs ++ e).
Proof.
  induction ws as [|w ws IH]; intros vs e Hf Hlt; inversion Hf as [|? v ? vs' Hwv Hr]; subst; [cbn in Hlt; contradiction|].
  destruct Hwv as (Hl & Hw & Hv). cbn [map lexlt] in Hlt. unfold number in Hlt at 1 2 3 4.
  destruct Hlt as [Hlt|[E Hlt]].
  - assert (Hb : before w v) by (apply before_digits; auto; lia).
    destruct ws, vs'; inversion Hr; subst; cbn [joined]; try rewrite <- !app_assoc; now apply before_app.
  - assert (w = v).
    { apply N2Z.inj in E. clear -Hl Hw Hv E. revert v Hl Hw Hv E. induction w as [|c w IHw]; intros [|d v] Hl Hw Hv E; try discriminate; [reflexivity|].
      inversion Hw; subst. inversion Hv; subst. injection Hl as Hl. rewrite !undec_cons, Hl in E.
      pose proof (@undec_bound w ltac:(assumption)) as B1. pose proof (@undec_bound v ltac:(assumption)) as B2. rewrite Hl in B1.
      assert (Ed : digit_value c = digit_value d /\ undec w = undec v).
      { apply N.div_mod_unique with (b := (10 ^ N.of_nat (List.length v))%N); auto. lia. }
      destruct Ed as (E1 & E2). f_equal; [now apply digit_value_inj|auto]. }
    subst v. destruct ws as [|w' ws], vs' as [|v' vs']; inversion Hr; subst; [cbn in Hlt; contradiction|].
    rewrite !joined_cons, <- !app_assoc, <- !app_comm_cons. apply before_same. cbn [before]. right. split; [reflexivity|]. now apply IH.
Qed.

Lemma put_digit_ok z : 0 <= z -> is_digit (put_digit z) = true /\ Z.of_N (digit_value (put_digit z)) = z mod 10.
Proof.
  intros H. unfold put_digit. pose proof (Z.mod_pos_bound z 10 ltac:(lia)). split; [apply is_digit_digit; lia|].
  rewrite digit_value_digit by lia. now rewrite Z2N.id by lia.
Qed.
Lemma two_ok z : 0 <= z < 100 -> digits (two z) /\ number (two z) = z.
Proof.
  intros H. destruct (@put_digit_ok (z / 10)) as (D1 & E1); [apply Z.div_pos; lia|]. destruct (@put_digit_ok z) as (D2 & E2); [lia|].
  split; [repeat constructor; auto|]. unfold number, undec, two. cbn [fold_left]. rewrite !N2Z.inj_add, !N2Z.inj_mul. rewrite !N2Z.inj_add, !N2Z.inj_mul.
  rewrite E1, E2. clear -H. Z.to_euclidean_division_equations; lia.
Qed.
Definition six (us : Z) : chars :=
  [put_digit (us / 100000); put_digit (us / 10000); put_digit (us / 1000); put_digit (us / 100); put_digit (us / 10); put_digit us].
Lemma six_ok z : 0 <= z < 1000000 -> digits (six z) /\ number (six z) = z.
Proof.
  intros H. destruct (@put_digit_ok (z / 100000)) as (D1 & E1); [apply Z.div_pos; lia|].
  destruct (@put_digit_ok (z / 10000)) as (D2 & E2); [apply Z.div_pos; lia|].
  destruct (@put_digit_ok (z / 1000)) as (D3 & E3); [apply Z.div_pos; lia|].
  destruct (@put_digit_ok (z / 100)) as (D4 & E4); [apply Z.div_pos; lia|].
  destruct (@put_digit_ok (z / 10)) as (D5 & E5); [apply Z.div_pos; lia|]. destruct (@put_digit_ok z) as (D6 & E6); [lia|].
  split; [repeat constructor; auto|]. unfold number, undec, six. cbn [fold_left].
  rewrite !N2Z.inj_add, !N2Z.inj_mul. repeat rewrite ?N2Z.inj_add, ?N2Z.inj_mul.
  rewrite E1, E2, E3, E4, E5, E6. clear -H. Z.to_euclidean_division_equations; lia.
Qed.
Lemma year_ok y : 0 <= y -> digits (put_year y) /\ number (put_year y) = y.
Proof. intros H. split; [apply dec_digits|]. unfold number, put_year. rewrite undec_dec. now rewrite Z2N.id. Qed.
Lemma year_length4 y : 1000 <= y < 10000 -> List.length (put_year y) = 4%nat.
Proof.
  intros H. unfold put_year. pose proof (@dec_lower (Z.to_N y) ltac:(lia)) as H1. pose proof (dec_upper (Z.to_N y)) as H2.
  set (n := List.length (dec (Z.to_N y))) in *. clearbody n.
  destruct (le_lt_dec n 3) as [Hn|Hn].
  - assert (10 ^ N.of_nat n <= 10 ^ 3)%N by (apply N.pow_le_mono_r; lia). lia.
  - destruct (le_lt_dec n 4) as [Hn'|Hn']; [lia|].
    assert (10 ^ 4 <= 10 ^ N.of_nat (n - 1))%N by (apply N.pow_le_mono_r; lia). lia.
Qed.

Definition words (b : tm) (us : Z) : list chars := map two [tm_mon b; tm_mday b; tm_hour b; tm_min b; tm_sec b] ++ [six us].
Lemma stamp_joined zone now : microsecond_stamp zone now =
  joined (put_year (tm_year (localtime zone (whole_seconds now))) :: words (localtime zone (whole_seconds now)) (part 1000 now)).
Proof. unfold microsecond_stamp, date_with. cbn [words map app joined]. rewrite <- app_assoc. reflexivity. Qed.

Lemma part_us now : part 1000 now = now / 1000 mod 1000000 /\ 0 <= part 1000 now < 1000000 /\ whole_seconds now = now / 1000 / 1000000.
Proof. unfold part, whole_seconds. Z.to_euclidean_division_equations; lia. Qed.

Lemma words_ok b us : exists_date b -> 0 <= us < 1000000 -> 0 <= tm_year b ->
  Forall digits (put_year (tm_year b) :: words b us) /\
  map number (put_year (tm_year b) :: words b us) = tm_list b ++ [us] /\
  map (@List.length ascii) (words b us) = [2; 2; 2; 2; 2; 6]%nat.
Proof.
  intros (H1 & H2 & H3 & H4 & H5) Hus Hy.
  assert (H2' : 0 <= tm_mday b < 100). { split; [lia|]. unfold days_in_month in H2. repeat destruct (_ =? _); cbn [andb orb negb] in H2; lia. }
  destruct (year_ok Hy) as (A1 & B1). destruct (@two_ok (tm_mon b) ltac:(lia)) as (A2 & B2). destruct (@two_ok (tm_mday b) ltac:(lia)) as (A3 & B3).
  destruct (@two_ok (tm_hour b) ltac:(lia)) as (A4 & B4). destruct (@two_ok (tm_min b) ltac:(lia)) as (A5 & B5).
  destruct (@two_ok (tm_sec b) ltac:(lia)) as (A6 & B6). destruct (six_ok Hus) as (A7 & B7).
  unfold words. cbn [map app]. repeat split.
  - repeat (apply Forall_cons; [assumption|]). apply Forall_nil.
  - rewrite B1, B2, B3, B4, B5, B6, B7. reflexivity.
Qed.

Lemma year_below b : exists_date b -> 1970 <= tm_year b -> instant_of b < year_10000 -> tm_year b < 10000.
Proof.
  intros (H1 & H2 & H3 & H4 & H5) Hy Hi. destruct (Z_lt_le_dec (tm_year b) 10000) as [H|H]; [exact H|]. exfalso.
  assert (Hb : 0 <= days_before_month (tm_year b) (tm_mon b)).
  { unfold days_before_month. generalize (seq 1 (Z.to_nat (tm_mon b - 1))). intros l. induction l as [|k l IH]; cbn [map fold_right]; [lia|].
    assert (0 <= days_in_month (tm_year b) (Z.of_nat k)); [|lia]. unfold days_in_month. repeat destruct (_ =? _); cbn [andb orb negb]; lia. }
  unfold instant_of, year_10000, days_since_1970 in Hi. change (days_before_month 10000 1) with 0 in Hi.
  assert (Hl : leap_days 10000 <= leap_days (tm_year b)).
  { unfold leap_days. set (y := tm_year b) in *. clearbody y. clear -H. Z.to_euclidean_division_equations; lia. }
  lia.
Qed.

Lemma stamp_before zone a b e : never_set_back zone -> 0 <= whole_seconds a + zone (whole_seconds a) ->
  whole_seconds b + zone (whole_seconds b) < year_10000 -> a / 1000 < b / 1000 ->
  before (microsecond_stamp zone a ++ e) (microsecond_stamp zone b ++ e).
Proof.
  intros Hz Ha Hb Hab. rewrite !stamp_joined.
  destruct (part_us a) as (P1 & P2 & P3). destruct (part_us b) as (Q1 & Q2 & Q3).
  assert (Hs : whole_seconds a <= whole_seconds b) by (rewrite P3, Q3; apply Z.div_le_mono; lia).
  assert (Hle : whole_seconds a + zone (whole_seconds a) <= whole_seconds b + zone (whole_seconds b)).
  { destruct (Z.eq_dec (whole_seconds a) (whole_seconds b)) as [->|]; [lia|]. apply Z.lt_le_incl, Hz. lia. }
  unfold localtime. destruct (broken_down_ok Ha) as (A1 & A2 & A3). destruct (@broken_down_ok (whole_seconds b + zone (whole_seconds b)) ltac:(lia)) as (B1 & B2 & B3).
  destruct (@words_ok _ _ A1 P2 ltac:(lia)) as (W1 & W2 & W3). destruct (@words_ok _ _ B1 Q2 ltac:(lia)) as (V1 & V2 & V3).
  assert (Y1 : tm_year (broken_down (whole_seconds a + zone (whole_seconds a))) < 10000) by (apply year_below; auto; lia).
  assert (Y2 : tm_year (broken_down (whole_seconds b + zone (whole_seconds b))) < 10000) by (apply year_below; auto; lia).
  apply before_joined.
  - inversion W1; subst. inversion V1; subst. constructor.
    + repeat split; auto. rewrite !year_length4 by lia. reflexivity.
    + clear -H2 H4 W3 V3. rewrite <- V3 in W3. clear V3. revert W3 H2 H4. generalize (words (broken_down (whole_seconds a + zone (whole_seconds a))) (part 1000 a)).
      generalize (words (broken_down (whole_seconds b + zone (whole_seconds b))) (part 1000 b)). intros vs ws.
      revert vs. induction ws as [|w ws IH]; intros [|v vs] E Hw Hv; try discriminate; [constructor|]. injection E as E1 E2.
      inversion Hw; subst. inversion Hv; subst. constructor; auto.
  - rewrite W2, V2. destruct (Z.eq_dec (whole_seconds a) (whole_seconds b)) as [E|E].
    + rewrite E. apply lexlt_same. cbn. left. rewrite P1, Q1. rewrite P3, Q3 in E. clear -Hab E. Z.to_euclidean_division_equations; lia.
    + apply lexlt_app, broken_down_mono. split; [exact Ha|]. apply Hz. lia.
Qed.
Lemma stamp_same zone a b : a / 1000 = b / 1000 -> microsecond_stamp zone a = microsecond_stamp zone b.
Proof.
  intros E. rewrite !stamp_joined. destruct (part_us a) as (P1 & _ & P3), (part_us b) as (Q1 & _ & Q3).
  rewrite P1, Q1, P3, Q3, E. reflexivity.
Qed.
