(** Character strings (std::string) as lists of ASCII characters, decimal output and input. *)
From Verif Require Import Base ListLemmas.
From Coq Require Export Ascii String.
From Coq Require Import NArith.
Local Close Scope string_scope.
Local Open Scope list_scope.

Definition chars := list ascii.
Definition lit (s : string) : chars := list_ascii_of_string s.

Definition chars_eqb (a b : chars) : bool :=
  if list_eq_dec ascii_dec a b then true else false.
Lemma chars_eqb_eq a b : chars_eqb a b = true <-> a = b.
Proof. unfold chars_eqb. destruct (list_eq_dec ascii_dec a b); split; congruence. Qed.

(** isdigit of the C locale *)
Definition digit_value (c : ascii) : N := (N_of_ascii c - 48)%N.
Definition is_digit (c : ascii) : bool := (48 <=? N_of_ascii c)%N && (N_of_ascii c <=? 57)%N.
Definition digit (d : N) : ascii := ascii_of_N (48 + d).

Lemma is_digit_digit d : (d < 10)%N -> is_digit (digit d) = true.
Proof.
  intros H. unfold is_digit, digit. rewrite N_ascii_embedding by lia. lia.
Qed.
Lemma digit_value_digit d : (d < 10)%N -> digit_value (digit d) = d.
Proof. intros H. unfold digit_value, digit. rewrite N_ascii_embedding by lia. lia. Qed.
Lemma digit_inj a b : (a < 10)%N -> (b < 10)%N -> digit a = digit b -> a = b.
Proof. intros Ha Hb E. apply (f_equal digit_value) in E. now rewrite !digit_value_digit in E. Qed.

(** ** Decimal output (operator<<(int) on non-negative values, std::to_string). *)
Fixpoint dec_fuel (fuel : nat) (n : N) : chars :=
  match fuel with
  | 0 => []
  | S fuel => if (n <? 10)%N then [digit n]
              else dec_fuel fuel (n / 10) ++ [digit (n mod 10)]
  end.
Definition dec (n : N) : chars := dec_fuel (S (N.size_nat n)) n.

(** Decimal value of a list of digits (most significant first). *)
Definition undec (s : chars) : N := fold_left (fun acc c => (acc * 10 + digit_value c)%N) s 0%N.

Lemma undec_snoc s c : undec (s ++ [c]) = (undec s * 10 + digit_value c)%N.
Proof. unfold undec. now rewrite fold_left_app. Qed.

Lemma size_nat_bound n : (n < 2 ^ N.of_nat (N.size_nat n))%N.
Proof.
  destruct n as [|p]; [reflexivity|]. simpl N.size_nat.
  induction p as [p IH|p IH|]; simpl Pos.size_nat; try reflexivity.
  - rewrite Nat2N.inj_succ, N.pow_succ_r'. lia.
  - rewrite Nat2N.inj_succ, N.pow_succ_r'. lia.
Qed.

Lemma dec_fuel_spec fuel : forall n, (n < 2 ^ N.of_nat fuel)%N -> (fuel <> 0)%nat ->
  Forall (fun c => is_digit c = true) (dec_fuel fuel n) /\ undec (dec_fuel fuel n) = n /\
  dec_fuel fuel n <> [] /\
  ((0 < n)%N -> hd_error (dec_fuel fuel n) <> Some (digit 0)).
Proof.
  induction fuel as [|fuel IH]; intros n Hn Hf; [congruence|]. cbn [dec_fuel].
  destruct (N.ltb_spec n 10) as [H|H].
  - repeat split; try discriminate.
    + constructor; [now apply is_digit_digit|constructor].
    + unfold undec. simpl. now rewrite digit_value_digit.
    + intros Hp E. simpl in E. injection E as E. apply digit_inj in E; lia.
  - rewrite Nat2N.inj_succ, N.pow_succ_r' in Hn.
    assert (Hd : (n / 10 < 2 ^ N.of_nat fuel)%N).
    { apply N.div_lt_upper_bound; lia. }
    assert (Hf0 : fuel <> 0).
    { intros ->. simpl in Hn. lia. }
    destruct (IH (n / 10)%N Hd Hf0) as (H1 & H2 & H3 & H4).
    assert (Hm : (n mod 10 < 10)%N) by (apply N.mod_lt; lia).
    repeat split.
    + apply Forall_app. split; auto. constructor; [now apply is_digit_digit|constructor].
    + rewrite undec_snoc, H2, digit_value_digit by auto.
      pose proof (N.div_mod' n 10). lia.
    + intros E. apply app_eq_nil in E as [_ E]. discriminate.
    + intros _. destruct (dec_fuel fuel (n / 10)) as [|c l]; [congruence|].
      simpl. apply H4. assert (1 <= n / 10)%N; [|lia].
      apply N.div_le_lower_bound; lia.
Qed.

Lemma dec_spec n :
  Forall (fun c => is_digit c = true) (dec n) /\ undec (dec n) = n /\ dec n <> [] /\
  ((0 < n)%N -> hd_error (dec n) <> Some (digit 0)).
Proof.
  apply dec_fuel_spec; [|lia].
  pose proof (size_nat_bound n). rewrite Nat2N.inj_succ, N.pow_succ_r'. lia.
Qed.

Lemma dec_digits n : Forall (fun c => is_digit c = true) (dec n).
Proof. apply dec_spec. Qed.
Lemma undec_dec n : undec (dec n) = n.
Proof. apply dec_spec. Qed.
Lemma dec_nonempty n : dec n <> [].
Proof. apply dec_spec. Qed.
Lemma dec_inj a b : dec a = dec b -> a = b.
Proof. intros H. rewrite <- (undec_dec a), <- (undec_dec b). now rewrite H. Qed.

(** Leading zeros do not change the value. *)
Lemma undec_zero s : undec (digit 0 :: s) = undec s.
Proof. reflexivity. Qed.

Lemma undec_app_zeros k s : undec (repeat (digit 0) k ++ s) = undec s.
Proof. induction k; simpl; auto. Qed.

(** Number of digits: 10^(len-1) <= n < 10^len for n > 0. *)
Lemma undec_bound s : Forall (fun c => is_digit c = true) s ->
  (undec s < 10 ^ N.of_nat (List.length s))%N.
Proof.
  induction s as [|c s IH] using rev_ind; intros H; [reflexivity|].
  apply Forall_app in H as [Hs Hc]. inversion Hc as [|? ? Hd _]; subst.
  rewrite undec_snoc, app_length. simpl List.length.
  rewrite Nat.add_1_r, Nat2N.inj_succ, N.pow_succ_r'.
  specialize (IH Hs). unfold is_digit in Hd. unfold digit_value. lia.
Qed.

Lemma undec_lower s c : is_digit c = true -> c <> digit 0 -> Forall (fun c => is_digit c = true) s ->
  (10 ^ N.of_nat (List.length s) <= undec (c :: s))%N.
Proof.
  intros Hc Hne. induction s as [|d s IH] using rev_ind; intros H.
  - unfold undec. simpl. unfold is_digit in Hc. unfold digit_value.
    assert (N_of_ascii c <> 48%N); [|lia].
    intros E. apply Hne. unfold digit. rewrite <- (ascii_N_embedding c), E. reflexivity.
  - apply Forall_app in H as [Hs Hd].
    change (c :: s ++ [d]) with ((c :: s) ++ [d]). rewrite undec_snoc, app_length. simpl List.length.
    rewrite Nat.add_1_r, Nat2N.inj_succ, N.pow_succ_r'. specialize (IH Hs). lia.
Qed.

Lemma dec_lower n : (0 < n)%N -> (10 ^ N.of_nat (List.length (dec n) - 1) <= n)%N.
Proof.
  intros Hn. destruct (dec_spec n) as (H1 & H2 & H3 & H4). specialize (H4 Hn).
  destruct (dec n) as [|c s]; [congruence|]. simpl in *. inversion H1; subst.
  rewrite Nat.sub_0_r. apply undec_lower; auto. congruence.
Qed.
Lemma dec_upper n : (n < 10 ^ N.of_nat (List.length (dec n)))%N.
Proof. rewrite <- (undec_dec n) at 1. apply undec_bound, dec_digits. Qed.

Lemma dec_length_mono a b : (a <= b)%N -> List.length (dec a) <= List.length (dec b).
Proof.
  intros H. destruct (N.eq_dec a 0) as [->|Ha].
  - change (dec 0) with [digit 0]. pose proof (dec_nonempty b). destruct (dec b); [congruence|simpl; lia].
  - pose proof (dec_lower a ltac:(lia)) as H1. pose proof (dec_upper b) as H2.
    assert (H3 : (10 ^ N.of_nat (List.length (dec a) - 1) < 10 ^ N.of_nat (List.length (dec b)))%N) by lia.
    apply N.pow_lt_mono_r_iff in H3; lia.
Qed.

(** ** Scanning *)
Fixpoint take_digits (s : chars) : chars :=
  match s with
  | [] => []
  | c :: s => if is_digit c then c :: take_digits s else []
  end.

Lemma take_digits_app ds rest : Forall (fun c => is_digit c = true) ds ->
  match rest with [] => True | c :: _ => is_digit c = false end ->
  take_digits (ds ++ rest) = ds.
Proof.
  intros H Hr. induction H as [|c ds Hc _ IH]; simpl.
  - destruct rest as [|c r]; simpl; auto. now rewrite Hr.
  - now rewrite Hc, IH.
Qed.

(** prefix test: label.find(p) == 0 *)
Fixpoint starts_with (p s : chars) : bool :=
  match p, s with
  | [], _ => true
  | a :: p, b :: s => if ascii_dec a b then starts_with p s else false
  | _, _ => false
  end.

Lemma starts_with_app p s : starts_with p (p ++ s) = true.
Proof. induction p as [|a p IH]; simpl; auto. destruct (ascii_dec a a); congruence. Qed.

Lemma starts_with_spec p s : starts_with p s = true <-> exists t, s = p ++ t.
Proof.
  revert s; induction p as [|a p IH]; intros s; simpl.
  - split; eauto.
  - destruct s as [|b s]; [split; [discriminate|intros (t & H); discriminate]|].
    destruct (ascii_dec a b) as [->|Hne].
    + rewrite IH. split; intros (t & H); exists t; congruence.
    + split; [discriminate|]. intros (t & H). congruence.
Qed.

(** std::string::substr(n): throws out_of_range if n > size. *)
Definition substr_from (s : chars) (n : nat) : outcome chars :=
  if n <=? List.length s then Ok (skipn n s) else Throw.
