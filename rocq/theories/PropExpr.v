(** Properties of the boundary condition expression language: C18, C19, C60. *)
From Coq Require Import Reals Lra.
From Verif Require Import Base ListLemmas Strings ExprModel ExprSpec ExprProofs ExprProofs2 ExprProofs5 ExprProofs6.
Set Implicit Arguments.
Local Open Scope list_scope.
Local Open Scope nat_scope.
Notation length := List.length.

(** ** C18: optimising an expression does not change its value *)

(** for every text that parses and all values of x, y, z, t; nothing is assumed about the arithmetic *)
Theorem C18_optimize :
  forall T (A : arith T) text e, parse_string A text = Ok e ->
    forall x y z t, deval A (functor_env x y z t) (doptimize A e) = deval A (functor_env x y z t) e.
Proof. intros. apply optimize_eval. Qed.
Print Assumptions C18_optimize.

(** also for trees that are partly optimised, and for conditions *)
Theorem C18_optimize_any_tree :
  forall T (A : arith T) env,
    (forall e, deval A env (doptimize A e) = deval A env e) /\
    (forall b, beval A env (boptimize A b) = beval A env b).
Proof. intros. apply optimize_eval. Qed.
Print Assumptions C18_optimize_any_tree.

(** the trees the parser builds for expressions in which no variable occurs *)
Inductive no_var {T} : dnode T -> Prop :=
| nv_const v : no_var (DConst v)
| nv_un u e : no_var e -> no_var (DUn u e)
| nv_bin o e1 e2 : no_var e1 -> no_var e2 -> no_var (DBin o e1 e2)
| nv_powi e n : no_var e -> no_var (DPowI e n)
| nv_cond b e1 e2 : no_varb b -> no_var e1 -> no_var e2 -> no_var (DCond b e1 e2)
with no_varb {T} : bnode T -> Prop :=
| nvb_const b : no_varb (BConst b)
| nvb_not b : no_varb b -> no_varb (BNot b)
| nvb_cmp o e1 e2 : no_var e1 -> no_var e2 -> no_varb (BCmp o e1 e2)
| nvb_log o b1 b2 : no_varb b1 -> no_varb b2 -> no_varb (BLog o b1 b2).
Scheme nv_ind := Minimality for no_var Sort Prop with nvb_ind := Minimality for no_varb Sort Prop.
Combined Scheme nv_mutind from nv_ind, nvb_ind.

(** such an expression is replaced by its value *)
Theorem C18_constants_folded :
  forall T (A : arith T) e, no_var e -> exists v, doptimize A e = DConst v /\ forall env, deval A env e = v.
Proof.
  intros T A e H.
  assert (G : (forall e, no_var e -> exists v, doptimize A e = DConst v) /\
              (forall b, no_varb b -> exists v, boptimize A b = @BConst T v)).
  { apply nv_mutind.
    - intros v. exists v. reflexivity.
    - intros u e0 _ [v E]. change (doptimize A (DUn u e0)) with (opt_un A u (doptimize A e0)). rewrite E. simpl. eauto.
    - intros o e1 e2 _ [v1 E1] _ [v2 E2].
      change (doptimize A (DBin o e1 e2)) with (opt_bin A o (doptimize A e1) (doptimize A e2)). rewrite E1, E2. simpl. eauto.
    - intros e0 n _ [v E]. change (doptimize A (DPowI e0 n)) with (opt_powi A (doptimize A e0) n). rewrite E. simpl. eauto.
    - intros b e1 e2 _ [vb Eb] _ [v1 E1] _ [v2 E2].
      change (doptimize A (DCond b e1 e2)) with (opt_cond (boptimize A b) (doptimize A e1) (doptimize A e2)).
      rewrite Eb, E1, E2. simpl. destruct vb; eauto.
    - intros v. exists v. reflexivity.
    - intros b _ [v E]. change (boptimize A (BNot b)) with (opt_not (boptimize A b)). rewrite E. simpl. eauto.
    - intros o e1 e2 _ [v1 E1] _ [v2 E2].
      change (boptimize A (BCmp o e1 e2)) with (opt_cmp A o (doptimize A e1) (doptimize A e2)). rewrite E1, E2. simpl. eauto.
    - intros o b1 b2 _ [v1 E1] _ [v2 E2].
      change (boptimize A (BLog o b1 b2)) with (opt_log o (boptimize A b1) (boptimize A b2)). rewrite E1, E2. simpl. eauto. }
  destruct (proj1 G e H) as [v E]. exists v. split; auto. intros env.
  rewrite <- (proj1 (optimize_eval A env) e), E. reflexivity.
Qed.
Print Assumptions C18_constants_folded.

(** ** C19: meaning of a written expression *)

(** Every text that is, up to letter case and spaces at both ends, a written form of an expression gives a functor whose
    value is the mathematical value of that expression, for all x, y, z, t.  [arith_laws] collects the (real-number)
    identities by which the parser regroups terms and the meaning of numerals.
    Partial: the grammar [written] is smaller than customary notation; the [_refuted] theorems below show that each
    of its restrictions is necessary. *)
Theorem C19_written_value_partial :
  forall T (A : arith T) (numval : chars -> T), arith_laws A numval ->
  forall text before s after a,
    spaces before -> spaces after -> lowercase text = before ++ s ++ after -> written LExpr s a ->
    exists f, functor_of A text = Ok f /\
      forall x y z t, functor_eval A f x y z t = Ok (aval A numval x y z t a).
Proof.
  intros T A numval laws text l s r a Hl Hr E H.
  destruct (parse_string_ok laws text Hl Hr H E) as (e & Ee & D).
  exists (Some (doptimize A e)). split.
  - unfold functor_of. destruct text as [|c text].
    + exfalso. simpl in E. symmetry in E. apply app_eq_nil in E as [_ E]. apply app_eq_nil in E as [E _]. subst s.
      destruct (ExprProofs4.wfact_of H) as (k & F & _). now apply (f_ne F).
    + rewrite Ee. reflexivity.
  - intros x y z t. unfold functor_eval. rewrite (proj1 (optimize_eval A _)). f_equal. apply D.
Qed.
Print Assumptions C19_written_value_partial.

(** *** the hypotheses are met: real arithmetic with the decimal value of numerals *)
Fixpoint split_char (c : ascii) (s : chars) : chars * option chars :=
  match s with
  | [] => ([], None)
  | x :: s' => if ascii_dec x c then ([], Some s') else let (u, v) := split_char c s' in (x :: u, v)
  end.
Definition exponentZ (s : option chars) : Z :=
  match s with
  | None => 0
  | Some ("-"%char :: d) => - Z.of_N (undec d)
  | Some d => Z.of_N (undec d)
  end%Z.
Definition decimalR (s : chars) : R :=
  let (m, ex) := split_char "e" s in
  let (i, f) := split_char "." m in
  let f := match f with None => [] | Some f => f end in
  (IZR (Z.of_N (undec (i ++ f))) * powerRZ 10 (exponentZ ex - Z.of_nat (length f)))%R.

Definition Rpow_real (a b : R) : R :=
  if Req_EM_T b (IZR (Int_part b)) then powerRZ a (Int_part b) else Rpower a b.
Definition Rb (P : R -> R -> Prop) (dec : forall a b, {P a b} + {~ P a b}) (a b : R) : bool := if dec a b then true else false.
Definition real_arith (fn : cfun -> R -> R) (fmod : R -> R -> R) : arith R := {|
  a_stod := fun s => match s with "-"%char :: s' => Ok (- decimalR s')%R | _ => Ok (decimalR s) end;
  a_e := exp 1; a_pi := PI; a_tau := (2 * PI)%R;
  a_fun := fn; a_neg := Ropp; a_add := Rplus; a_sub := Rminus; a_mul := Rmult; a_div := Rdiv;
  a_mod := fmod; a_pow := Rpow_real; a_powi := powerRZ;
  a_gt := fun a b => if Rgt_dec a b then true else false;
  a_ge := fun a b => if Rge_dec a b then true else false;
  a_lt := fun a b => if Rlt_dec a b then true else false;
  a_le := fun a b => if Rle_dec a b then true else false;
  a_eq := fun a b => if Req_EM_T a b then true else false |}.

Lemma split_char_none c d : Forall (fun x => x <> c) d -> split_char c d = (d, None).
Proof.
  induction 1 as [|x d Hx Hd IH]; auto. simpl. destruct (ascii_dec x c); [contradiction|]. now rewrite IH.
Qed.
Lemma decimalR_digits s : digits s -> decimalR s = IZR (Z.of_N (undec s)).
Proof.
  intros [_ H]. unfold decimalR.
  rewrite split_char_none by (eapply Forall_impl; [|exact H]; intros x Hx ->; discriminate).
  rewrite split_char_none by (eapply Forall_impl; [|exact H]; intros x Hx ->; discriminate).
  rewrite app_nil_r. simpl. ring.
Qed.
Lemma Rpow_real_int a n : Rpow_real a (IZR n) = powerRZ a n.
Proof.
  assert (E : Int_part (IZR n) = n).
  { unfold Int_part. rewrite <- (tech_up (IZR n) (n + 1)); [lia| |]; rewrite plus_IZR; lra. }
  unfold Rpow_real. rewrite E. destruct (Req_EM_T (IZR n) (IZR n)); [reflexivity|congruence].
Qed.
Theorem real_arith_laws : forall fn fmod, arith_laws (real_arith fn fmod) decimalR.
Proof.
  intros fn fmod. constructor; simpl.
  - intros s H. destruct (numeral_chars H) as (Hn & Hh & _). destruct s as [|c s]; [congruence|]. simpl in Hh.
    assert (c <> "-"%char) by (intros ->; destruct Hh; discriminate).
    destruct c as [[] [] [] [] [] [] [] []]; try reflexivity. congruence.
  - reflexivity.
  - intros. ring.
  - intros. unfold Rdiv. ring.
  - intros. destruct (Req_EM_T a b), (Req_EM_T b a); congruence.
  - intros a s Hd Hs. rewrite decimalR_digits by auto. now rewrite Rpow_real_int.
  - intros a s Hd Hs. rewrite decimalR_digits by auto. now rewrite <- opp_IZR, Rpow_real_int.
Qed.
Print Assumptions real_arith_laws.

(** a concrete text: spaces, upper case, all levels of the grammar *)
Local Ltac not_outside := let Hx := fresh in intros Hx; vm_compute in Hx; repeat (destruct Hx as [Hx|Hx]; [discriminate Hx|]); exact Hx.
Example C19_example_text : chars := lit " 2.5*Sin(PI*t) - x/4^2 + y ".
Example C19_example_written :
  written LExpr (lit "2.5*sin(pi*t) - x/4^2 + y")
    (Add (Sub (Mul (Num (lit "2.5")) (Call Sin (Mul ConstPi (Var VT))))
              (Div (Var VX) (Power (Num (lit "4")) (Num (lit "2")))))
         (Var VY)).
Proof.
  assert (D : forall c, is_digit c = true -> digits [c]) by (intros c Hc; split; [discriminate|now constructor]).
  assert (P0 : forall n, padded n n) by (intros n; exists [], []; repeat split; try constructor; now rewrite app_nil_r).
  assert (P1 : forall n, padded n (lit " " ++ n ++ lit " ")) by (intros n; exists (lit " "), (lit " "); repeat split; repeat constructor).
  assert (PF : forall s a, written LPrimary s a -> written LFactor s a) by (intros; now apply w_power, w_primary).
  assert (PP : forall s a, written LPrimary s a -> written LProduct s a) by (intros; now apply w_factor, PF).
  apply w_sum.
  apply (@w_add (lit "2.5*sin(pi*t) - x/4^2") _ (lit " + ") (lit "y")); [|apply P1|apply PP, w_var; constructor].
  apply (@w_sub (lit "2.5*sin(pi*t)") _ (lit " - ") (lit "x/4^2")); [|apply P1| |].
  - apply w_product. apply (@w_mul (lit "2.5") _ (lit "*") (lit "sin(pi*t)")); [|apply P0|].
    + apply PP, w_num, num_plain. apply (@man_frac (lit "2") (lit "5")); [exact (D "2"%char eq_refl)|exact (D "5"%char eq_refl)].
    + apply PF. apply (@w_call (lit "sin") Sin (lit "pi*t")); [constructor|]. apply w_sum, w_product.
      apply (@w_mul (lit "pi") _ (lit "*") (lit "t")); [apply PP, w_pi|apply P0|apply PF, w_var; constructor].
  - apply (@w_div (lit "x") _ (lit "/") (lit "4^2")); [apply PP, w_var; constructor|apply P0|].
    apply w_power. apply (@w_pow (lit "4") _ (lit "^") (lit "2")); [|apply P0| |].
    + apply w_num, num_plain, man_int. exact (D "4"%char eq_refl).
    + apply w_primary, w_num, num_plain, man_int. exact (D "2"%char eq_refl).
    + intros _. reflexivity.
  - not_outside.
Qed.
Example C19_example_value : forall fn fmod, exists f,
  functor_of (real_arith fn fmod) C19_example_text = Ok f /\
  forall x y z t, functor_eval (real_arith fn fmod) f x y z t =
    Ok (decimalR (lit "2.5") * fn Sin (PI * t) - x / Rpow_real (decimalR (lit "4")) (decimalR (lit "2")) + y)%R.
Proof.
  intros fn fmod.
  destruct (@C19_written_value_partial R _ _ (real_arith_laws fn fmod) C19_example_text (lit " ") (lit "2.5*sin(pi*t) - x/4^2 + y") (lit " ") _
    ltac:(repeat constructor) ltac:(repeat constructor) eq_refl C19_example_written) as (f & E & H).
  exists f. split; [exact E|exact H].
Qed.
(** and a conditional one with a comparison and connectives *)
Example C19_example_if :
  written LExpr (lit "t <= 1 & true | x > y ? -z : (e)") (If (Or (And (Cmp CLe (Var VT) (Num (lit "1"))) BTrue) (Cmp CGt (Var VX) (Var VY))) (Neg (Var VZ)) ConstE).
Proof.
  assert (P1 : forall n, padded n (lit " " ++ n ++ lit " ")) by (intros n; exists (lit " "), (lit " "); repeat split; repeat constructor).
  assert (PS : forall s a, written LPrimary s a -> written LSum s a) by (intros; now apply w_product, w_factor, w_power, w_primary).
  apply (@w_if (lit "t <= 1 & true | x > y") _ (lit " ? ") (lit "-z") _ (lit " : ") (lit "(e)")); [|apply P1| |apply P1|apply w_sum, PS, w_e].
  - apply (@bw_or (lit "t <= 1 & true") _ (lit " | ") (lit "x > y")); [|apply P1|].
    + apply bw_xorb, bw_conj. apply (@bw_and (lit "t <= 1") _ (lit " & ") (lit "true")); [|apply P1|apply bw_true].
      apply bw_cond. apply (@bw_cmp (lit "t") _ (lit "<=") CLe (lit " <= ") (lit "1")); [apply PS, w_var; constructor|constructor|apply P1| | |];
        try not_outside.
      apply PS, w_num, num_plain, man_int. split; [discriminate|repeat constructor].
    + apply bw_conj, bw_cond. apply (@bw_cmp (lit "x") _ (lit ">") CGt (lit " > ") (lit "y")); [apply PS, w_var; constructor|constructor|apply P1|apply PS, w_var; constructor| |];
        not_outside.
  - apply w_sum, w_product, w_factor. apply (@w_neg [] (lit "z")); [constructor|apply w_var; constructor].
Qed.

(** *** Refutations.  Each holds for every arithmetic: the tree that the parser builds is shown. *)

(** letters may be written in upper or lower case, in the whole alphabet *)
Definition letter_pairs : list (ascii * ascii) :=
  combine (lit "ABCDEFGHIJKLMNOPQRSTUVWXYZ") (lit "abcdefghijklmnopqrstuvwxyz").
Definition same_up_to_case (a b : ascii) : Prop := a = b \/ In (a, b) letter_pairs \/ In (b, a) letter_pairs.
Theorem C19_case_insensitive :
  forall T (A : arith T) s s', Forall2 same_up_to_case s s' -> functor_of A s = functor_of A s'.
Proof.
  intros T A s s' H.
  assert (Hp : forall a b, In (a, b) letter_pairs -> lower_char a = lower_char b).
  { intros a b Hab. assert (Hall : forallb (fun p => if ascii_dec (lower_char (fst p)) (lower_char (snd p)) then true else false)
      letter_pairs = true) by (vm_compute; reflexivity).
    rewrite forallb_forall in Hall. specialize (Hall _ Hab). cbn [fst snd] in Hall.
    destruct (ascii_dec (lower_char a) (lower_char b)); [assumption|discriminate]. }
  assert (E : lowercase s = lowercase s').
  { unfold lowercase. induction H as [|a b s s' Hab _ IH]; cbn [map]; auto. rewrite IH. f_equal.
    destruct Hab as [->|[Hab|Hab]]; [reflexivity|now apply Hp|symmetry; now apply Hp]. }
  unfold functor_of, parse_string. rewrite E. destruct H; reflexivity.
Qed.
Print Assumptions C19_case_insensitive.
Example C19_case_used : Forall2 same_up_to_case (lit "X*SIN(Z)") (lit "x*Sin(z)").
Proof.
  unfold letter_pairs. cbn.
  repeat (apply Forall2_cons; [first [left; reflexivity | right; left; cbn; repeat first [left; reflexivity | right]]|]).
  apply Forall2_nil.
Qed.

(** unary minus binds tighter than '^': "-x^2" is (-x)^2 *)
Theorem C19_neg_power_refuted :
  forall T (A : arith T), parse_string A (lit "-x^2") = Ok (DPowI (DUn UNeg (DRef VX)) 2).
Proof. reflexivity. Qed.
Print Assumptions C19_neg_power_refuted.
(** ... so over the reals its value at x = 1 is 1 instead of -1 *)
Theorem C19_neg_power_value_refuted :
  forall fn fmod, exists f, functor_of (real_arith fn fmod) (lit "-x^2") = Ok f /\
    functor_eval (real_arith fn fmod) f 1%R 0%R 0%R 0%R = Ok 1%R.
Proof.
  intros. exists (Some (DPowIEC (DUnRef UNeg VX) 2)). split.
  { unfold functor_of. cbn [lit list_ascii_of_string]. change (_ :: _) with (lit "-x^2"). rewrite C19_neg_power_refuted. reflexivity. }
  change (Ok (powerRZ (- (1)) 2) = Ok 1%R). f_equal. simpl. ring. Qed.
Print Assumptions C19_neg_power_value_refuted.

(** '-' is chosen as the outer operator only if the last minus sign is binary: "x-y*-z" is (x-y)*(-z) *)
Theorem C19_minus_times_neg_refuted :
  forall T (A : arith T), parse_string A (lit "x-y*-z") =
    Ok (DBin OMul (DBin OSub (DRef VX) (DRef VY)) (DUn UNeg (DRef VZ))).
Proof. reflexivity. Qed.
Print Assumptions C19_minus_times_neg_refuted.

(** a negative exponent of a numeral hides a binary minus: "x-y*1e-3" is (x-y)*1e-3 and "x-2e-3" is rejected *)
Theorem C19_minus_exponent_refuted :
  forall T (A : arith T) v, a_stod A (lit "1e-3") = Ok v ->
    parse_string A (lit "x-y*1e-3") = Ok (DBin OMul (DBin OSub (DRef VX) (DRef VY)) (DConst v)) /\
    parse_string A (lit "x-2e-3") = Throw.
Proof.
  intros T A v E. split; [|reflexivity].
  vm_compute in E |- *. rewrite E. reflexivity.
Qed.
Print Assumptions C19_minus_exponent_refuted.

(** a minus sign after the constant e is not a binary operator: "e-1" and "x*e-y" *)
Theorem C19_minus_after_e_refuted :
  forall T (A : arith T), parse_string A (lit "e-1") = Throw /\
    parse_string A (lit "x*e-y") = Throw.
Proof. split; reflexivity. Qed.
Print Assumptions C19_minus_after_e_refuted.

(** '%' binds weaker than '+' and '-': "x+y%z" is (x+y)%z *)
Theorem C19_mod_refuted :
  forall T (A : arith T), parse_string A (lit "x+y%z") =
    Ok (DBin OMod (DBin OAdd (DRef VX) (DRef VY)) (DRef VZ)).
Proof. reflexivity. Qed.
Print Assumptions C19_mod_refuted.

(** '+' binds weaker than '-': "x+y-z" is x+(y-z), and '*' weaker than '/': equal for reals, not for doubles *)
Theorem C19_regrouping_refuted :
  forall T (A : arith T),
    parse_string A (lit "x+y-z") = Ok (DBin OAdd (DRef VX) (DBin OSub (DRef VY) (DRef VZ))) /\
    parse_string A (lit "x*y/z") = Ok (DBin OMul (DRef VX) (DBin ODiv (DRef VY) (DRef VZ))).
Proof. split; reflexivity. Qed.
Print Assumptions C19_regrouping_refuted.

(** spaces inside parentheses or before the parenthesis of a call, '^' in a comparison, and a negation without
    spaces around it are rejected *)
Theorem C19_rejected_refuted :
  forall T (A : arith T),
    parse_string A (lit "( x )") = Throw /\ parse_string A (lit "sin (x)") = Throw /\
    parse_string A (lit "x^2 > 1 ? 1 : 2") = Throw /\ parse_string A (lit "!true?1:2") = Throw.
Proof. repeat split; reflexivity. Qed.
Print Assumptions C19_rejected_refuted.

(** an empty condition makes the parser read before the start of the text *)
Theorem C19_empty_condition_refuted :
  forall T (A : arith T), parse_string A (lit "?1:2") = UB.
Proof. reflexivity. Qed.
Print Assumptions C19_empty_condition_refuted.

(** and there is a text for which the recursion never ends (a stack overflow instead of an error message) *)
Theorem C19_endless_recursion_refuted :
  forall T (A : arith T) v0 v1, a_stod A (lit "0") = Ok v0 -> a_stod A (lit "1") = Ok v1 ->
    forall depth, fst (parse A depth) (reader_of (lit "!!!!!!!true?1:0>(y^2")) = Abort.
Proof.
  intros T A v0 v1 E0 E1.
  assert (L : forall n, fst (parse A n) (Reader (lit "(y") (lit "^2" ++ [nul])) = Abort).
  { induction n as [|n IH]; [reflexivity|]. cbn [parse]. destruct (parse A n) as [pe pb]. cbn [fst] in *.
    change (parse_equation_body A pe pb (Reader (lit "(y") (lit "^2" ++ [nul]))) with
      (do o <- (do base <- pe (Reader (lit "(y") (lit "^2" ++ [nul]));
       do r2 <- sub_from (Reader (lit "(y") (lit "^2" ++ [nul])) 3;
       let power_text := apply_formatting r2 in
       if is_integer (win power_text)
       then Ok (Some (DPowI base (to_int32 (strtol (win power_text ++ after power_text)))))
       else do e <- pe power_text; Ok (Some (DBin OPow base e)));
       match o with Some e => Ok e | None => do f <- parse_function pe (Reader (lit "(y") (lit "^2" ++ [nul]));
              match f with Some e => Ok e | None => Throw end end).
    rewrite IH. reflexivity. }
  assert (C1 : forall af n, fst (parse A n) (Reader (lit "1") af) = Abort \/ fst (parse A n) (Reader (lit "1") af) = Ok (DConst v1)).
  { intros af [|n]; [now left|]. cbn [parse]. destruct (parse A n) as [pe pb]. cbn [fst]. right.
    unfold parse_equation_body. change (apply_formatting (Reader (lit "1") af)) with (Reader (lit "1") af).
    cbn [win lit list_ascii_of_string]. unfold parse_constant. cbn. change ["1"%char] with (lit "1"). rewrite E1. reflexivity. }
  assert (C0 : forall af n, fst (parse A n) (Reader (lit "0") af) = Abort \/ fst (parse A n) (Reader (lit "0") af) = Ok (DConst v0)).
  { intros af [|n]; [now left|]. cbn [parse]. destruct (parse A n) as [pe pb]. cbn [fst]. right.
    unfold parse_equation_body. change (apply_formatting (Reader (lit "0") af)) with (Reader (lit "0") af).
    cbn [win lit list_ascii_of_string]. unfold parse_constant. cbn. change ["0"%char] with (lit "0"). rewrite E0. reflexivity. }
  assert (CT : forall af n, snd (parse A n) (Reader (lit "true") af) = Abort \/ snd (parse A n) (Reader (lit "true") af) = Ok (BConst true)).
  { intros af [|n]; [now left|]. cbn [parse]. destruct (parse A n) as [pe pb]. cbn [snd]. right. reflexivity. }
  (* the left operand of '>' *)
  assert (CL : forall af n, let o := fst (parse A n) (Reader (lit "true?1:0") af) in o = Abort \/ exists e, o = Ok e).
  { intros af [|n]; [now left|]. cbv zeta. pose proof (C1 (lit ":0" ++ af) n) as H1. pose proof (C0 af n) as H0.
    pose proof (CT (lit "?1:0" ++ af) n) as Ht.
    cbn [parse]. destruct (parse A n) as [pe pb]. cbn [fst snd] in *.
    change (parse_equation_body A pe pb (Reader (lit "true?1:0") af)) with
      (do o <- (do b <- pb (Reader (lit "true") (lit "?1:0" ++ af)); do e1 <- pe (Reader (lit "1") (lit ":0" ++ af));
                do r2 <- Ok (Reader (lit "0") af); do e2 <- pe r2; Ok (Some (DCond b e1 e2)));
       match o with Some e => Ok e | None => do f <- parse_function pe (Reader (lit "true?1:0") af);
              match f with Some e => Ok e | None => Throw end end).
    destruct Ht as [-> | ->]; [now left|]. destruct H1 as [-> | ->]; [now left|]. cbn [obind]. destruct H0 as [-> | ->]; [now left|].
    right. eexists. reflexivity. }
  (* the condition that is left when the negations are used up *)
  assert (B0 : forall n, snd (parse A n) (Reader (lit "true?1:0>(y") (lit "^2" ++ [nul])) = Abort).
  { intros [|n]; [reflexivity|]. pose proof (L n) as HL. pose proof (CL (lit ">(y^2" ++ [nul]) n) as HC. cbv zeta in HC.
    cbn [parse]. destruct (parse A n) as [pe pb]. cbn [fst snd] in *.
    change (parse_boolean_body pe pb (Reader (lit "true?1:0>(y") (lit "^2" ++ [nul]))) with
      (do e1 <- pe (Reader (lit "true?1:0") (lit ">(y^2" ++ [nul])); do r2 <- Ok (Reader (lit "(y") (lit "^2" ++ [nul]));
       do e2 <- pe r2; Ok (BCmp CGt e1 e2)).
    destruct HC as [-> |[e ->]]; [reflexivity|]. cbn [obind]. rewrite HL. reflexivity. }
  assert (Step : forall w af w' af', (forall pe pb, @parse_boolean_body T pe pb (Reader w af) = do b <- pb (Reader w' af'); Ok (BNot b)) ->
     (forall n, snd (parse A n) (Reader w' af') = Abort) -> forall n, snd (parse A n) (Reader w af) = Abort).
  { intros w af w' af' H H' [|n]; [reflexivity|]. specialize (H' n). cbn [parse]. destruct (parse A n) as [pe pb]. cbn [snd] in *.
    rewrite H, H'. reflexivity. }
  assert (B1 := Step (lit "!true?1:0>(") (lit "y^2" ++ [nul]) (lit "true?1:0>(y") (lit "^2" ++ [nul]) (fun pe pb => eq_refl) B0).
  assert (B2 := Step (lit "!!true?1:0>") (lit "(y^2" ++ [nul]) (lit "!true?1:0>(") (lit "y^2" ++ [nul]) (fun pe pb => eq_refl) B1).
  assert (B3 := Step (lit "!!!true?1:0") (lit ">(y^2" ++ [nul]) (lit "!!true?1:0>") (lit "(y^2" ++ [nul]) (fun pe pb => eq_refl) B2).
  assert (B4 := Step (lit "!!!!true?1:") (lit "0>(y^2" ++ [nul]) (lit "!!!true?1:0") (lit ">(y^2" ++ [nul]) (fun pe pb => eq_refl) B3).
  assert (B5 := Step (lit "!!!!!true?1") (lit ":0>(y^2" ++ [nul]) (lit "!!!!true?1:") (lit "0>(y^2" ++ [nul]) (fun pe pb => eq_refl) B4).
  assert (B6 := Step (lit "!!!!!!true?") (lit "1:0>(y^2" ++ [nul]) (lit "!!!!!true?1") (lit ":0>(y^2" ++ [nul]) (fun pe pb => eq_refl) B5).
  assert (B7 := Step (lit "!!!!!!!true") (lit "?1:0>(y^2" ++ [nul]) (lit "!!!!!!true?") (lit "1:0>(y^2" ++ [nul]) (fun pe pb => eq_refl) B6).
  intros [|n]; [reflexivity|]. specialize (B7 n). cbn [parse]. destruct (parse A n) as [pe pb]. cbn [fst snd] in *.
  change (parse_equation_body A pe pb (reader_of (lit "!!!!!!!true?1:0>(y^2"))) with
      (do o <- (do b <- pb (Reader (lit "!!!!!!!true") (lit "?1:0>(y^2" ++ [nul])); do e1 <- pe (Reader (lit "1") (lit ":0>(y^2" ++ [nul]));
                do r2 <- Ok (Reader (lit "0>(y^2") [nul]); do e2 <- pe r2; Ok (Some (DCond b e1 e2)));
       match o with Some e => Ok e | None => do f <- parse_function pe (reader_of (lit "!!!!!!!true?1:0>(y^2"));
              match f with Some e => Ok e | None => Throw end end).
  rewrite B7. reflexivity.
Qed.
Print Assumptions C19_endless_recursion_refuted.

(** ** C60: copies and assignments *)

(** A copy of a functor made from a text computes the same values; assigning a text that parses makes the functor
    that text's functor; a text that does not parse throws and leaves the functor as it was. *)
Theorem C60_copy_and_assign :
  forall T (A : arith T) text f, bcfun_new A text = Ok f ->
    bcfun_copy A f = Ok f /\
    (forall g, text <> [] -> bcfun_assign A g f = (Ok tt, f)) /\
    (forall text' g', text' <> [] -> bcfun_new A text' = Ok g' -> bcfun_assign_text A f text' = (Ok tt, g')) /\
    (forall text', bcfun_new A text' = Throw -> bcfun_assign_text A f text' = (Throw, f)).
Proof.
  intros T A text f H.
  assert (G : forall s g h, s <> [] -> bcfun_new A s = Ok g -> bcfun_assign_text A h s = (Ok tt, g)).
  { intros s g h Hs E. unfold bcfun_new, functor_of, bcfun_assign_text in *. destruct s as [|c s]; [congruence|].
    destruct (parse_string A (c :: s)); try discriminate. simpl in E. now injection E as <-. }
  assert (Ht : bf_text f = text).
  { unfold bcfun_new in H. destruct (functor_of A text); try discriminate. simpl in H. now injection H as <-. }
  split; [|split; [|split]].
  - unfold bcfun_copy. now rewrite Ht.
  - intros g Hs. unfold bcfun_assign. rewrite Ht. now apply G.
  - intros. now apply G.
  - intros s E. unfold bcfun_new, functor_of, bcfun_assign_text in *. destruct s as [|c s]; [discriminate|].
    destruct (parse_string A (c :: s)); try discriminate. reflexivity.
Qed.
Print Assumptions C60_copy_and_assign.
Example C60_met : forall T (A : arith T), exists f, bcfun_new A (lit "sin(x) + y*t") = Ok f.
Proof. intros. eexists. vm_compute. reflexivity. Qed.

(** Refuted: assigning a functor without a text (which the copy constructor accepts) throws. *)
Theorem C60_assign_empty_refuted :
  forall T (A : arith T) f g, bcfun_new A [] = Ok g -> bcfun_copy A g = Ok g /\ fst (bcfun_assign A f g) = Throw.
Proof. intros T A f g [= <-]. split; reflexivity. Qed.
Print Assumptions C60_assign_empty_refuted.
