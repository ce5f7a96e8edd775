(** Specification vocabulary for the expression language of boundary conditions: abstract syntax with the usual
    mathematical meaning, and a grammar saying which strings are written forms of which expression.
    Nothing here refers to the parser; only the record [arith] of operations on numbers and the enumerations naming
    functions, comparisons and variables are shared with the model. *)
From Verif Require Import Base Strings ExprModel.
Set Implicit Arguments.
Local Open Scope list_scope.
Local Open Scope nat_scope.

(** ** Abstract syntax and meaning *)
Inductive aexp :=
| Num (s : chars)                      (* a numeral *)
| Var (x : var)
| ConstE | ConstPi | ConstTau
| Neg (a : aexp)
| Add (a b : aexp) | Sub (a b : aexp) | Mul (a b : aexp) | Div (a b : aexp) | Mod (a b : aexp)
| Power (a b : aexp)
| Call (f : cfun) (a : aexp)
| If (c : bexp) (a b : aexp)
with bexp :=
| BTrue | BFalse
| Cmp (o : cmp2) (a b : aexp)
| Or (p q : bexp) | Xor (p q : bexp) | And (p q : bexp).

Section Meaning.
Context {T : Type} (A : arith T) (numval : chars -> T) (x y z t : T).
Fixpoint aval (a : aexp) : T :=
  match a with
  | Num s => numval s
  | Var VX => x | Var VY => y | Var VZ => z | Var VT => t
  | ConstE => a_e A | ConstPi => a_pi A | ConstTau => a_tau A
  | Neg a => a_neg A (aval a)
  | Add a b => a_add A (aval a) (aval b)
  | Sub a b => a_sub A (aval a) (aval b)
  | Mul a b => a_mul A (aval a) (aval b)
  | Div a b => a_div A (aval a) (aval b)
  | Mod a b => a_mod A (aval a) (aval b)
  | Power a b => a_pow A (aval a) (aval b)
  | Call f a => a_fun A f (aval a)
  | If c a b => if bval c then aval a else aval b
  end
with bval (c : bexp) : bool :=
  match c with
  | BTrue => true | BFalse => false
  | Cmp CGt a b => a_gt A (aval a) (aval b)
  | Cmp CGe a b => a_ge A (aval a) (aval b)
  | Cmp CLt a b => a_lt A (aval a) (aval b)
  | Cmp CLe a b => a_le A (aval a) (aval b)
  | Cmp CEq a b => a_eq A (aval a) (aval b)
  | Or p q => orb (bval p) (bval q)
  | Xor p q => xorb (bval p) (bval q)
  | And p q => andb (bval p) (bval q)
  end.
End Meaning.

(** ** Written forms *)
Definition digits (s : chars) : Prop := s <> [] /\ Forall (fun c => is_digit c = true) s.

(** numerals: 12  12.  12.5  .5  with an optional exponent e3 or e-3 *)
Inductive mantissa : chars -> Prop :=
| man_int d : digits d -> mantissa d
| man_dot d : digits d -> mantissa (d ++ lit ".")
| man_frac d f : digits d -> digits f -> mantissa (d ++ lit "." ++ f)
| man_point f : digits f -> mantissa (lit "." ++ f).
Inductive numeral : chars -> Prop :=
| num_plain m : mantissa m -> numeral m
| num_exp m d : mantissa m -> digits d -> numeral (m ++ lit "e" ++ d)
| num_exp_neg m d : mantissa m -> digits d -> numeral (m ++ lit "e-" ++ d).

Inductive varname : chars -> var -> Prop :=
| vn_x : varname (lit "x") VX | vn_y : varname (lit "y") VY
| vn_z : varname (lit "z") VZ | vn_t : varname (lit "t") VT.

Inductive funname : chars -> cfun -> Prop :=
| fn_sin : funname (lit "sin") Sin | fn_cos : funname (lit "cos") Cos | fn_tan : funname (lit "tan") Tan
| fn_erf : funname (lit "erf") Erf | fn_exp : funname (lit "exp") Exp | fn_log : funname (lit "log") Log
| fn_abs : funname (lit "abs") Abs | fn_asin : funname (lit "asin") ASin | fn_acos : funname (lit "acos") ACos
| fn_atan : funname (lit "atan") ATan | fn_sqrt : funname (lit "sqrt") Sqrt | fn_cbrt : funname (lit "cbrt") Cbrt
| fn_erfc : funname (lit "erfc") Erfc | fn_ceil : funname (lit "ceil") Ceil | fn_round : funname (lit "round") Round
| fn_floor : funname (lit "floor") Floor | fn_log10 : funname (lit "log10") Log10.

Inductive cmpname : chars -> cmp2 -> Prop :=
| cn_gt : cmpname (lit ">") CGt | cn_ge : cmpname (lit ">=") CGe
| cn_lt : cmpname (lit "<") CLt | cn_le : cmpname (lit "<=") CLe
| cn_eq : cmpname (lit "==") CEq.

(** any number of spaces *)
Definition spaces (s : chars) : Prop := Forall (fun c => c = " "%char) s.
(** an operator with spaces around it *)
Definition padded (op s : chars) : Prop := exists l r, spaces l /\ spaces r /\ s = l ++ op ++ r.

(** the characters of s that are outside all parentheses *)
Fixpoint toplevel_from (depth : nat) (s : chars) : chars :=
  match s with
  | [] => []
  | c :: s' =>
      if ascii_dec c "(" then toplevel_from (S depth) s'
      else if ascii_dec c ")" then toplevel_from (pred depth) s'
      else match depth with 0 => c :: toplevel_from 0 s' | _ => toplevel_from depth s' end
  end.
Definition toplevel (s : chars) : chars := toplevel_from 0 s.
Definition outside (c : ascii) (s : chars) : Prop := In c (toplevel s).

(** an exponent that is written as a decimal integer fits in an int *)
Definition small_exponent (b : aexp) : Prop :=
  match b with
  | Num s | Neg (Num s) => Forall (fun c => is_digit c = true) s -> (undec s < 2 ^ 31)%N
  | _ => True
  end.

(** Grammar, tightest binding first.
    Restrictions compared with the usual notation (each one is necessary, see the [_refuted] theorems):
    the constant e is written (e); unary minus applies to a primary, not to a power; the right operand of a binary
    minus has no other minus sign outside parentheses except a leading one; no spaces directly inside parentheses or
    before the parenthesis of a function call; no ^ outside parentheses in a comparison; no negation of conditions. *)
Inductive level := LPrimary | LPower | LFactor | LProduct | LSum | LExpr.
Inductive blevel := LCond0 | LConj | LXorB | LDisj.

Inductive written : level -> chars -> aexp -> Prop :=
(* primaries *)
| w_num s : numeral s -> written LPrimary s (Num s)
| w_var s v : varname s v -> written LPrimary s (Var v)
| w_pi : written LPrimary (lit "pi") ConstPi
| w_tau : written LPrimary (lit "tau") ConstTau
| w_e : written LPrimary (lit "(e)") ConstE
| w_paren s a : written LExpr s a -> written LPrimary (lit "(" ++ s ++ lit ")") a
| w_call n f s a : funname n f -> written LExpr s a -> written LPrimary (n ++ lit "(" ++ s ++ lit ")") (Call f a)
(* powers, right associative *)
| w_primary s a : written LPrimary s a -> written LPower s a
| w_pow s a op t b : written LPrimary s a -> padded (lit "^") op -> written LPower t b -> small_exponent b ->
    written LPower (s ++ op ++ t) (Power a b)
| w_pow_neg s a op sp t b : written LPrimary s a -> padded (lit "^") op -> spaces sp -> written LPrimary t b ->
    small_exponent (Neg b) -> written LPower (s ++ op ++ lit "-" ++ sp ++ t) (Power a (Neg b))
(* factors *)
| w_power s a : written LPower s a -> written LFactor s a
| w_neg sp s a : spaces sp -> written LPrimary s a -> written LFactor (lit "-" ++ sp ++ s) (Neg a)
(* products and quotients, left associative *)
| w_factor s a : written LFactor s a -> written LProduct s a
| w_mul s a op t b : written LProduct s a -> padded (lit "*") op -> written LFactor t b ->
    written LProduct (s ++ op ++ t) (Mul a b)
| w_div s a op t b : written LProduct s a -> padded (lit "/") op -> written LFactor t b ->
    written LProduct (s ++ op ++ t) (Div a b)
(* sums and differences, left associative *)
| w_product s a : written LProduct s a -> written LSum s a
| w_add s a op t b : written LSum s a -> padded (lit "+") op -> written LProduct t b ->
    written LSum (s ++ op ++ t) (Add a b)
| w_sub s a op t b : written LSum s a -> padded (lit "-") op -> written LProduct t b -> ~ outside "-" t ->
    written LSum (s ++ op ++ t) (Sub a b)
| w_sub_neg s a op sp t b : written LSum s a -> padded (lit "-") op -> spaces sp -> written LPrimary t b ->
    ~ outside "-" t -> written LSum (s ++ op ++ lit "-" ++ sp ++ t) (Sub a (Neg b))
(* expressions *)
| w_sum s a : written LSum s a -> written LExpr s a
| w_mod s a op t b : written LProduct s a -> padded (lit "%") op -> written LPower t b ->
    written LExpr (s ++ op ++ t) (Mod a b)
| w_if c p q s a k t b : bwritten LDisj c p -> padded (lit "?") q -> written LExpr s a -> padded (lit ":") k ->
    written LExpr t b -> written LExpr (c ++ q ++ s ++ k ++ t) (If p a b)
with bwritten : blevel -> chars -> bexp -> Prop :=
| bw_true : bwritten LCond0 (lit "true") BTrue
| bw_false : bwritten LCond0 (lit "false") BFalse
| bw_paren s p : bwritten LDisj s p -> bwritten LCond0 (lit "(" ++ s ++ lit ")") p
| bw_cmp s a n o op t b : written LSum s a -> cmpname n o -> padded n op -> written LSum t b ->
    ~ outside "^" s -> ~ outside "^" t -> bwritten LCond0 (s ++ op ++ t) (Cmp o a b)
| bw_cond s p : bwritten LCond0 s p -> bwritten LConj s p
| bw_and s p op t q : bwritten LConj s p -> padded (lit "&") op -> bwritten LCond0 t q ->
    bwritten LConj (s ++ op ++ t) (And p q)
| bw_conj s p : bwritten LConj s p -> bwritten LXorB s p
| bw_xor s p op t q : bwritten LXorB s p -> padded (lit "^") op -> bwritten LConj t q ->
    bwritten LXorB (s ++ op ++ t) (Xor p q)
| bw_xorb s p : bwritten LXorB s p -> bwritten LDisj s p
| bw_or s p op t q : bwritten LDisj s p -> padded (lit "|") op -> bwritten LXorB t q ->
    bwritten LDisj (s ++ op ++ t) (Or p q).

(** ** The laws of arithmetic that relate the written order to the order in which the parser groups terms *)
Record arith_laws {T : Type} (A : arith T) (numval : chars -> T) : Prop := {
  law_num s : numeral s -> a_stod A s = Ok (numval s);
  law_num_neg s : numeral s -> a_stod A (lit "-" ++ s) = Ok (a_neg A (numval s));
  law_add_sub a b c : a_add A a (a_sub A b c) = a_sub A (a_add A a b) c;
  law_mul_div a b c : a_mul A a (a_div A b c) = a_div A (a_mul A a b) c;
  law_eq_sym a b : a_eq A a b = a_eq A b a;
  law_powi a s : digits s -> (undec s < 2 ^ 31)%N -> a_powi A a (Z.of_N (undec s)) = a_pow A a (numval s);
  law_powi_neg a s : digits s -> (undec s < 2 ^ 31)%N ->
    a_powi A a (- Z.of_N (undec s))%Z = a_pow A a (a_neg A (numval s))
}.
