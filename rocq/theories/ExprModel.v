(** Model of the boundary-condition expression language:
    /repo/src/nimble_expression_parser.h and nimble_expression_parser.cc.

    Simplifications (all definitions below):
    - double is an arbitrary type [T] with arbitrary operations ([arith]); nothing is assumed about them here.
    - A [Reader] (h 369-378: a pointer into the buffer of a std::string plus a length) is modelled by the
      characters of its window and the characters that follow the window in the buffer, up to and including the
      terminating NUL.  Forming a window that leaves the buffer, or using an empty window where the code reads
      at index length - 1, is undefined behaviour ([UB]).
    - The nodes are trees instead of pointers owned by the MemoryManager (h 68-116): nodes are never deleted
      before the functor and a node is updated only by [optimize], which returns the new tree here.
    - In mem.New<...>(Parse..(a), Parse..(b)) the left argument is parsed first (C++ leaves the order open).
    - The recursion depth is bounded by [fuel]; running out is [Abort], which stands for a stack overflow: there are
      (malformed) texts for which the recursion never ends, see [C19_endless_recursion_refuted] in PropExpr.v. *)
From Verif Require Import Base Strings.
Set Implicit Arguments.
Local Open Scope list_scope.
Local Open Scope nat_scope.

(** ** The operations on double that the expressions use *)

(** The functions of h 292-308 (sin ... log10). *)
Inductive cfun := Sin | Cos | Tan | Erf | Exp | Log | Abs | ASin | ACos | ATan | Sqrt | Cbrt | Erfc | Ceil | Round
                | Floor | Log10.

Record arith (T : Type) := Arith {
  a_stod : chars -> outcome T;      (* std::stod *)
  a_e : T; a_pi : T; a_tau : T;     (* M_E, M_PI, M_PI * 2 *)
  a_fun : cfun -> T -> T;
  a_neg : T -> T;
  a_add : T -> T -> T; a_sub : T -> T -> T; a_mul : T -> T -> T; a_div : T -> T -> T;
  a_mod : T -> T -> T;              (* std::fmod *)
  a_pow : T -> T -> T;              (* std::pow(double, double) *)
  a_powi : T -> Z -> T;             (* std::pow(double, int) *)
  a_gt : T -> T -> bool; a_ge : T -> T -> bool; a_lt : T -> T -> bool; a_le : T -> T -> bool;
  a_eq : T -> T -> bool
}.

Inductive bop2 := OAdd | OSub | OMul | ODiv | OMod | OPow.
Inductive cmp2 := CGt | CGe | CLt | CLe | CEq.
Inductive log2 := LOr | LXor | LAnd.
Inductive var := VX | VY | VZ | VT.

Section Eval.
Context {T : Type} (A : arith T).

(** operation / f of the macros, h 152-324 *)
Definition bop (o : bop2) : T -> T -> T :=
  match o with OAdd => a_add A | OSub => a_sub A | OMul => a_mul A | ODiv => a_div A | OMod => a_mod A
             | OPow => a_pow A end.
Definition cop (o : cmp2) : T -> T -> bool :=
  match o with CGt => a_gt A | CGe => a_ge A | CLt => a_lt A | CLe => a_le A | CEq => a_eq A end.
Definition lop (o : log2) : bool -> bool -> bool :=
  match o with LOr => orb | LXor => xorb | LAnd => andb end.

(** Unary operation of a GenericFunction<double,double>: a cmath function or GenericNeg. *)
Inductive ufun := UFun (f : cfun) | UNeg.
Definition uop (u : ufun) : T -> T := match u with UFun f => a_fun A f | UNeg => a_neg A end.

(** The operands of a two-argument node after optimisation (h 179-290): a sub-expression
    (Evaluatable<In>* ), a pointer to a variable (In* ), or a stored constant. *)

(** Nodes of type Evaluatable<double> and Evaluatable<bool>.
    - [DConst] GenericConstant<double> (h 132-138), [DRef] GenericReference<double> (h 141-147);
    - [DUn] GenericFunction, [DUnRef] its ReferenceCase (h 152-177);
    - [DBin] name<double,double,double>; [DBinRR] ReferenceCase<In1,In2>, [DBinRE] ReferenceCase<In1,Evaluatable<In2>>,
      [DBinER] ReferenceCase<Evaluatable<In1>,In2>, [DBinCR]/[DBinCE] ConstCase1, [DBinRC]/[DBinEC] ConstCase2
      (h 179-290);
    - [DPowI] GenericPow<double,double,int> whose second operand is a GenericConstant<int> (the only way the parser
      builds one), [DPowIRC]/[DPowIEC] its ConstCase2;
    - [DCond] Conditional<double> (h 326-353);
    - the same for the Boolean nodes; there are no Boolean variables, so the reference cases of operators on bool
      cannot arise. *)
Inductive dnode :=
| DConst (v : T)
| DRef (x : var)
| DUn (u : ufun) (e : dnode)
| DUnRef (u : ufun) (x : var)
| DBin (o : bop2) (e1 e2 : dnode)
| DBinRR (o : bop2) (x1 x2 : var)
| DBinRE (o : bop2) (x1 : var) (e2 : dnode)
| DBinER (o : bop2) (e1 : dnode) (x2 : var)
| DBinCR (o : bop2) (c1 : T) (x2 : var)
| DBinCE (o : bop2) (c1 : T) (e2 : dnode)
| DBinRC (o : bop2) (x1 : var) (c2 : T)
| DBinEC (o : bop2) (e1 : dnode) (c2 : T)
| DPowI (e : dnode) (n : Z)
| DPowIRC (x : var) (n : Z)
| DPowIEC (e : dnode) (n : Z)
| DCond (b : bnode) (e1 e2 : dnode)
with bnode :=
| BConst (b : bool)
| BNot (b : bnode)
| BCmp (o : cmp2) (e1 e2 : dnode)
| BCmpRR (o : cmp2) (x1 x2 : var)
| BCmpRE (o : cmp2) (x1 : var) (e2 : dnode)
| BCmpER (o : cmp2) (e1 : dnode) (x2 : var)
| BCmpCR (o : cmp2) (c1 : T) (x2 : var)
| BCmpCE (o : cmp2) (c1 : T) (e2 : dnode)
| BCmpRC (o : cmp2) (x1 : var) (c2 : T)
| BCmpEC (o : cmp2) (e1 : dnode) (c2 : T)
| BLog (o : log2) (b1 b2 : bnode)
| BLogCE (o : log2) (c1 : bool) (b2 : bnode)
| BLogEC (o : log2) (b1 : bnode) (c2 : bool).

(** operator Out() const of every node class (h 136, 145, 159, 163, 189-210, 250-271, 332); [env] gives the doubles
    the GenericReference nodes point to. *)
Fixpoint deval (env : var -> T) (e : dnode) : T :=
  match e with
  | DConst v => v
  | DRef x => env x
  | DUn u e => uop u (deval env e)
  | DUnRef u x => uop u (env x)
  | DBin o e1 e2 => bop o (deval env e1) (deval env e2)
  | DBinRR o x1 x2 => bop o (env x1) (env x2)
  | DBinRE o x1 e2 => bop o (env x1) (deval env e2)
  | DBinER o e1 x2 => bop o (deval env e1) (env x2)
  | DBinCR o c1 x2 => bop o c1 (env x2)
  | DBinCE o c1 e2 => bop o c1 (deval env e2)
  | DBinRC o x1 c2 => bop o (env x1) c2
  | DBinEC o e1 c2 => bop o (deval env e1) c2
  | DPowI e n => a_powi A (deval env e) n
  | DPowIRC x n => a_powi A (env x) n
  | DPowIEC e n => a_powi A (deval env e) n
  | DCond b e1 e2 => if beval env b then deval env e1 else deval env e2
  end
with beval (env : var -> T) (b : bnode) : bool :=
  match b with
  | BConst b => b
  | BNot b => negb (beval env b)
  | BCmp o e1 e2 => cop o (deval env e1) (deval env e2)
  | BCmpRR o x1 x2 => cop o (env x1) (env x2)
  | BCmpRE o x1 e2 => cop o (env x1) (deval env e2)
  | BCmpER o e1 x2 => cop o (deval env e1) (env x2)
  | BCmpCR o c1 x2 => cop o c1 (env x2)
  | BCmpCE o c1 e2 => cop o c1 (deval env e2)
  | BCmpRC o x1 c2 => cop o (env x1) c2
  | BCmpEC o e1 c2 => cop o (deval env e1) c2
  | BLog o b1 b2 => lop o (beval env b1) (beval env b2)
  | BLogCE o c1 b2 => lop o c1 (beval env b2)
  | BLogEC o b1 c2 => lop o (beval env b1) c2
  end.

(** ** optimize *)

(** GenericFunction::optimize after its operand has been optimised, h 165-175 *)
Definition opt_un (u : ufun) (e : dnode) : dnode :=
  match e with
  | DConst v => DConst (uop u v)
  | DRef x => DUnRef u x
  | _ => DUn u e
  end.

(** name::optimize of MakeGenericOperator and MakeGenericTwoInputFunc on doubles, h 211-236 and 272-297 *)
Definition opt_bin (o : bop2) (e1 e2 : dnode) : dnode :=
  match e1 with
  | DConst c1 =>
      match e2 with
      | DConst c2 => DConst (bop o c1 c2)
      | DRef x2 => DBinCR o c1 x2
      | _ => DBinCE o c1 e2
      end
  | DRef x1 =>
      match e2 with
      | DConst c2 => DBinRC o x1 c2
      | DRef x2 => DBinRR o x1 x2
      | _ => DBinRE o x1 e2
      end
  | _ =>
      match e2 with
      | DConst c2 => DBinEC o e1 c2
      | DRef x2 => DBinER o e1 x2
      | _ => DBin o e1 e2
      end
  end.

(** the same with a GenericConstant<int> as second operand (its optimize returns itself, h 124-128) *)
Definition opt_powi (e : dnode) (n : Z) : dnode :=
  match e with
  | DConst c => DConst (a_powi A c n)
  | DRef x => DPowIRC x n
  | _ => DPowIEC e n
  end.

(** the comparison operators, h 211-236 *)
Definition opt_cmp (o : cmp2) (e1 e2 : dnode) : bnode :=
  match e1 with
  | DConst c1 =>
      match e2 with
      | DConst c2 => BConst (cop o c1 c2)
      | DRef x2 => BCmpCR o c1 x2
      | _ => BCmpCE o c1 e2
      end
  | DRef x1 =>
      match e2 with
      | DConst c2 => BCmpRC o x1 c2
      | DRef x2 => BCmpRR o x1 x2
      | _ => BCmpRE o x1 e2
      end
  | _ =>
      match e2 with
      | DConst c2 => BCmpEC o e1 c2
      | DRef x2 => BCmpER o e1 x2
      | _ => BCmp o e1 e2
      end
  end.

(** the logical operators, h 211-236 *)
Definition opt_log (o : log2) (b1 b2 : bnode) : bnode :=
  match b1 with
  | BConst c1 => match b2 with BConst c2 => BConst (lop o c1 c2) | _ => BLogCE o c1 b2 end
  | _ => match b2 with BConst c2 => BLogEC o b1 c2 | _ => BLog o b1 b2 end
  end.

(** GenericNot::optimize, h 165-175 *)
Definition opt_not (b : bnode) : bnode :=
  match b with BConst c => BConst (negb c) | _ => BNot b end.

(** Conditional::optimize after its three operands, h 337-352 *)
Definition opt_cond (b : bnode) (e1 e2 : dnode) : dnode :=
  match b with
  | BConst c => if c then e1 else e2
  | _ => DCond b e1 e2
  end.

(** optimize of every class; classes that do not override it return themselves (h 124-128) *)
Fixpoint doptimize (e : dnode) : dnode :=
  match e with
  | DUn u e => opt_un u (doptimize e)
  | DBin o e1 e2 => opt_bin o (doptimize e1) (doptimize e2)
  | DPowI e n => opt_powi (doptimize e) n
  | DCond b e1 e2 => opt_cond (boptimize b) (doptimize e1) (doptimize e2)
  | _ => e
  end
with boptimize (b : bnode) : bnode :=
  match b with
  | BNot b => opt_not (boptimize b)
  | BCmp o e1 e2 => opt_cmp o (doptimize e1) (doptimize e2)
  | BLog o b1 b2 => opt_log o (boptimize b1) (boptimize b2)
  | _ => b
  end.

End Eval.

Arguments dnode T : clear implicits.
Arguments bnode T : clear implicits.

(** ** Reader *)

Record reader := Reader { win : chars; after : chars }.

Definition nul : ascii := Ascii.zero.
(** [Reader(const std::string&)], h 375: the window is the whole string, followed by the terminating NUL. *)
Definition reader_of (s : chars) : reader := Reader s [nul].

(** first[i] (h 476-481).  Only used with i inside the buffer; NUL otherwise. *)
Definition rd (r : reader) (i : nat) : ascii := nth i (win r ++ after r) nul.
Definition rlen (r : reader) : nat := List.length (win r).

(** r.sub(r.first, p), h 392-396, for p <= length *)
Definition sub_prefix (r : reader) (p : nat) : reader :=
  Reader (firstn p (win r)) (skipn p (win r) ++ after r).
(** r.sub(i, r.length), h 386-390: with i > length the length becomes negative, i.e. huge *)
Definition sub_from (r : reader) (i : nat) : outcome reader :=
  if i <=? rlen r then Ok (Reader (skipn i (win r)) (after r)) else UB.
(** r.sub(i, j), h 386-390, for i <= j <= length *)
Definition sub_range (r : reader) (i j : nat) : reader :=
  Reader (skipn i (firstn j (win r))) (skipn j (win r) ++ after r).
(** r.sub(r.first + 1, r.length), h 392-396: the window keeps its length and moves one character to the right *)
Definition sub_shift (r : reader) : outcome reader :=
  match win r ++ after r with
  | [] => UB
  | _ :: rest => if rlen r <? List.length rest
                 then Ok (Reader (firstn (rlen r) rest) (skipn (rlen r) rest)) else UB
  end.

Section Scan.
Variables (open close : ascii).

(** the while loop of Reader::Next, h 403-410; [l] holds the characters at pos + 1, pos + 2, ... *)
Fixpoint next_loop (len : nat) (l : chars) (depth pos : nat) : nat * nat :=
  match l with
  | [] => (pos, depth)
  | c :: l' =>
      if (depth =? 0) || negb (pos <? len) then (pos, depth)
      else next_loop len l'
             (if ascii_dec c open then S depth else if ascii_dec c close then pred depth else depth) (S pos)
  end.
(** Reader::Next, h 398-415: new pos and the returned depth *)
Definition next (r : reader) (pos : nat) : nat * nat :=
  if ascii_dec (rd r pos) open
  then next_loop (rlen r) (skipn (S pos) (win r ++ after r)) 1 pos
  else (S pos, 0).

(** the while loop of Reader::Prev, h 421-428; [l] holds the characters at pos - 1, pos - 2, ... *)
Fixpoint prev_loop (l : chars) (depth pos : nat) : nat * nat :=
  match l with
  | [] => (pos, depth)
  | c :: l' =>
      if (depth =? 0) || (pos =? 0) then (pos, depth)
      else prev_loop l'
             (if ascii_dec c close then S depth else if ascii_dec c open then pred depth else depth) (pred pos)
  end.
(** Reader::Prev, h 416-433 (called with pos > 0 only) *)
Definition prev (r : reader) (pos : nat) : nat * nat :=
  if ascii_dec (rd r pos) close
  then prev_loop (rev (firstn pos (win r ++ after r))) 1 pos
  else (pred pos, 0).
End Scan.

Definition ch_open : ascii := "(".
Definition ch_close : ascii := ")".

(** Reader::operator>>(char), h 435-446: position where the scan stops, and whether the character was found there.
    [n] bounds the number of iterations (every iteration advances). *)
Fixpoint fwd_loop (r : reader) (c : ascii) (n pos : nat) : nat :=
  match n with
  | 0 => pos
  | S n => if (pos <? rlen r - 1) && negb (if ascii_dec (rd r pos) c then true else false)
           then fwd_loop r c n (fst (next ch_open ch_close r pos)) else pos
  end.
Definition find_fwd (r : reader) (c : ascii) : nat * bool :=
  let p := fwd_loop r c (rlen r) 0 in (p, if ascii_dec (rd r p) c then true else false).

(** Reader::operator<<(char), h 448-456 (an empty window, pos = UINT_MAX, is excluded by the callers or UB there) *)
Fixpoint bwd_loop (r : reader) (c : ascii) (n pos : nat) : nat :=
  match n with
  | 0 => pos
  | S n => if (0 <? pos) && negb (if ascii_dec (rd r pos) c then true else false)
           then bwd_loop r c n (fst (prev ch_open ch_close r pos)) else pos
  end.
Definition find_bwd (r : reader) (c : ascii) : nat * bool :=
  let p := bwd_loop r c (rlen r) (rlen r - 1) in (p, if ascii_dec (rd r p) c then true else false).

(** Reader::operator==(const char* ), h 463-475 *)
Definition req (r : reader) (s : chars) : bool := chars_eqb (win r) s.

(** ** nimble_expression_parser.cc *)

(** IsCMathFunc and GetCMathFunc, cc 46-80 *)
Definition cmath_table : list (chars * cfun) :=
  [ (lit "sin", Sin); (lit "cos", Cos); (lit "tan", Tan); (lit "erf", Erf); (lit "exp", Exp); (lit "log", Log);
    (lit "abs", Abs); (lit "asin", ASin); (lit "acos", ACos); (lit "atan", ATan); (lit "sqrt", Sqrt);
    (lit "cbrt", Cbrt); (lit "erfc", Erfc); (lit "ceil", Ceil); (lit "round", Round); (lit "floor", Floor);
    (lit "log10", Log10) ].
Definition cmath_lookup (r : reader) : option cfun :=
  match find (fun p => req r (fst p)) cmath_table with Some (_, f) => Some f | None => None end.

(** IsInteger, cc 88-98 (IsDigit, cc 82-86, is [is_digit]) *)
Definition is_integer (s : chars) : bool :=
  match s with
  | [] => false
  | c :: s' =>
      if (List.length s =? 1) && ((if ascii_dec c "-" then true else false) || (if ascii_dec c "+" then true else false))
      then false
      else if negb (if ascii_dec c "-" then true else false) && negb (if ascii_dec c "+" then true else false) &&
              negb (is_digit c) then false
      else forallb is_digit s'
  end.

(** the while loop of IsNumber, cc 108-121 *)
Fixpoint number_loop (s : chars) (decimal digits : bool) : bool :=
  match s with
  | [] => true
  | c :: s' =>
      if is_digit c then number_loop s' decimal true
      else if (if ascii_dec c "." then true else false) && negb decimal then number_loop s' true digits
      else if (if ascii_dec c "e" then true else false) && digits then is_integer s'
      else false
  end.
(** IsNumber, cc 100-123 *)
Definition is_number (s : chars) : bool :=
  match s with
  | [] => false
  | c :: s' => if (if ascii_dec c "-" then true else false) || (if ascii_dec c "+" then true else false)
               then number_loop s' false false else number_loop s false false
  end.

(** ConvertStringToLowercase, cc 125-133 *)
Definition lower_char (c : ascii) : ascii :=
  if ((65 <=? N_of_ascii c)%N && (N_of_ascii c <=? 90)%N)%bool then ascii_of_N (N_of_ascii c + 32) else c.
Definition lowercase (s : chars) : chars := map lower_char s.

Definition is_space (c : ascii) : bool := if ascii_dec c " " then true else false.

(** number of leading spaces, but never all characters (the loops stop when first and last meet) *)
Fixpoint lead_spaces (s : chars) : nat :=
  match s with
  | c :: ((_ :: _) as s') => if is_space c then S (lead_spaces s') else 0
  | _ => 0
  end.

(** RemoveWhitespace, cc 135-146, on a non-empty window: first moves right over spaces until it meets last, then
    last moves left over spaces until it meets first. *)
Definition remove_whitespace (r : reader) : reader :=
  let r1 := let k := lead_spaces (win r) in Reader (skipn k (win r)) (after r) in
  let m := lead_spaces (rev (win r1)) in
  sub_prefix r1 (rlen r1 - m).

(** RemoveRedundantParenthesis, cc 148-163 ([n] bounds the iterations; each one shortens the window by 2).
    A window of length 1 never satisfies pos == length - 1 = 0, since Next has advanced pos. *)
Fixpoint remove_parens (n : nat) (r : reader) : reader :=
  match n with
  | 0 => r
  | S n =>
      if ascii_dec (rd r 0) ch_open then
        if (fst (next ch_open ch_close r 0) =? rlen r - 1) && (0 <? rlen r)
        then remove_parens n (sub_range r 1 (rlen r - 1))
        else r
      else r
  end.

(** ApplyNecessaryFormatting, cc 165-171 *)
Definition apply_formatting (r : reader) : reader :=
  match win r with
  | [] => r
  | _ => remove_parens (rlen r) (remove_whitespace r)
  end.

(** ** strtol(.., 10) and the conversion to int, h 628 *)
Fixpoint take_digits (s : chars) : chars :=
  match s with c :: s' => if is_digit c then c :: take_digits s' else [] | [] => [] end.
Definition strtol (s : chars) : Z :=
  let clamp z := Z.max (- 2 ^ 63) (Z.min (2 ^ 63 - 1) z) in
  match s with
  | c :: s' =>
      if ascii_dec c "-" then clamp (- Z.of_N (undec (take_digits s')))%Z
      else if ascii_dec c "+" then clamp (Z.of_N (undec (take_digits s')))
      else clamp (Z.of_N (undec (take_digits s)))
  | [] => 0%Z
  end.
Definition to_int32 (z : Z) : Z := ((z + 2 ^ 31) mod 2 ^ 32 - 2 ^ 31)%Z.

Section Parse.
Context {T : Type} (A : arith T).

(** EquationContext::ParseDoubleConstant, h 545-559; None is the null pointer *)
Definition parse_constant (r : reader) : outcome (option (dnode T)) :=
  if req r (lit "e") then Ok (Some (DConst (a_e A)))
  else if req r (lit "pi") then Ok (Some (DConst (a_pi A)))
  else if req r (lit "tau") then Ok (Some (DConst (a_tau A)))
  else if is_number (win r) then do v <- a_stod A (win r); Ok (Some (DConst v))
  else Ok None.

(** variables.find, cc 188-190, with the variables of BoundaryConditionFunctor (h 715-718) *)
Definition find_variable (s : chars) : option var :=
  if chars_eqb s (lit "x") then Some VX
  else if chars_eqb s (lit "y") then Some VY
  else if chars_eqb s (lit "z") then Some VZ
  else if chars_eqb s (lit "t") then Some VT
  else None.

Definition mem_char (c : ascii) (l : chars) : bool := if in_dec ascii_dec c l then true else false.

(** the while loop of ParseFunction, h 565-570: false = returns 0 *)
Fixpoint function_scan (s : chars) : bool :=
  match s with
  | [] => true
  | c :: s' => if mem_char c (lit "( ") then true
               else if mem_char c (lit "*/^+=<~>") then false else function_scan s'
  end.

(** first character of a window (h 563, 633: *r.first) *)
Definition first_char (r : reader) : ascii := rd r 0.

(** the loops that find the binary minus, h 606-610: walk left over '-' and ' ', then right to a '-' *)
Fixpoint minus_left (r : reader) (pos : nat) : nat :=
  match pos with
  | 0 => 0
  | S p => if mem_char (rd r pos) (lit "- ") then minus_left r p else pos
  end.
Fixpoint minus_right (r : reader) (n pos : nat) : nat :=
  match n with
  | 0 => pos
  | S n => if ascii_dec (rd r pos) "-" then pos else minus_right r n (S pos)
  end.

Section Body.
Variable parse_equation : reader -> outcome (dnode T).
Variable parse_boolean : reader -> outcome (bnode T).

(** EquationContext::ParseFunction, h 560-583 *)
Definition parse_function (r : reader) : outcome (option (dnode T)) :=
  let c := first_char r in
  if is_digit c || mem_char c (lit "(-") || (rlen r <? 3) then Ok None
  else if negb (function_scan (win r)) then Ok None
  else
    let (p, found) := find_fwd r ch_open in
    if found then
      let (q, depth) := next ch_open ch_close r p in
      if 0 <? depth then Throw
      else if q <? rlen r - 1 then Ok None
      else
        match cmath_lookup (sub_prefix r p) with
        | Some f => do r' <- sub_from r p; do e <- parse_equation r'; Ok (Some (DUn (UFun f) e))
        | None => Ok None
        end
    else Ok None.

(** mem.New<name>(ParseEquation(r.sub(r.first, pos)), ParseEquation(r.sub(pos + k, r.length))) *)
Definition parse_split (o : bop2) (r : reader) (p k : nat) : outcome (option (dnode T)) :=
  do e1 <- parse_equation (sub_prefix r p);
  do r2 <- sub_from r (p + k);
  do e2 <- parse_equation r2;
  Ok (Some (DBin o e1 e2)).

(** the '^' and leading '-' cases of ParseOperation, h 623-633 *)
Definition parse_op_pow (r : reader) : outcome (option (dnode T)) :=
  let (p, found) := find_fwd r "^" in
  if found then
    do base <- parse_equation (sub_prefix r p);
    do r2 <- sub_from r (p + 1);
    let power_text := apply_formatting r2 in
    if is_integer (win power_text)
    then Ok (Some (DPowI base (to_int32 (strtol (win power_text ++ after power_text)))))
    else do e <- parse_equation power_text; Ok (Some (DBin OPow base e))
  else if ascii_dec (first_char r) "-" then
    do r1 <- sub_from r 1; do e <- parse_equation r1; Ok (Some (DUn UNeg e))
  else Ok None.

(** the '*' and '/' cases, h 617-621 *)
Definition parse_op_mul (r : reader) : outcome (option (dnode T)) :=
  let (p, found) := find_bwd r "*" in
  if found then parse_split OMul r p 1
  else let (p, found) := find_bwd r "/" in
       if found then parse_split ODiv r p 1
       else parse_op_pow r.

(** the '-' case, h 604-615 *)
Definition parse_op_minus (r : reader) : outcome (option (dnode T)) :=
  let (p, found) := find_bwd r "-" in
  if found then
    let q := minus_left r p in
    let c := rd r q in
    if ((0 <? q) || negb (if ascii_dec c "-" then true else false)) && negb (mem_char c (lit "*/^e=<~>"))
    then parse_split OSub r (minus_right r (S p - q) q) 1
    else parse_op_mul r
  else parse_op_mul r.

(** the '%' and '+' cases, h 598-602 *)
Definition parse_op_plus (r : reader) : outcome (option (dnode T)) :=
  let (p, found) := find_bwd r "%" in
  if found then parse_split OMod r p 1
  else let (p, found) := find_bwd r "+" in
       if found then parse_split OAdd r p 1
       else parse_op_minus r.

(** EquationContext::ParseOperation, h 584-636 *)
Definition parse_operation (r : reader) : outcome (option (dnode T)) :=
  let (p1, found) := find_fwd r "?" in
  if found then
    let (q, depth) := next "?" ":" r p1 in
    if 0 <? depth then Throw
    else if negb (q =? rlen r) then
      do b <- parse_boolean (sub_prefix r p1);
      do e1 <- parse_equation (sub_range r (p1 + 1) q);
      do r2 <- sub_from r (q + 1);
      do e2 <- parse_equation r2;
      Ok (Some (DCond b e1 e2))
    else parse_op_plus r
  else parse_op_plus r.

(** EquationContext::ParseEquation(Reader), cc 173-193 *)
Definition parse_equation_body (r0 : reader) : outcome (dnode T) :=
  let r := apply_formatting r0 in
  match win r with
  | [] => Throw
  | _ =>
      do c <- parse_constant r;
      match c with
      | Some e => Ok e
      | None =>
          do o <- parse_operation r;
          match o with
          | Some e => Ok e
          | None =>
              do f <- parse_function r;
              match f with
              | Some e => Ok e
              | None => match find_variable (win r) with Some x => Ok (DRef x) | None => Throw end
              end
          end
      end
  end.

(** mem.New<name>(ParseBooleanExpression(..), ParseBooleanExpression(..)) *)
Definition parse_log (o : log2) (r : reader) (p : nat) : outcome (bnode T) :=
  do b1 <- parse_boolean (sub_prefix r p);
  do r2 <- sub_from r (p + 1);
  do b2 <- parse_boolean r2;
  Ok (BLog o b1 b2).

(** one of the comparisons of h 659-675 *)
Definition parse_cmp (o : cmp2) (r : reader) (p k : nat) : outcome (bnode T) :=
  do e1 <- parse_equation (sub_prefix r p);
  do r2 <- sub_from r (p + k);
  do e2 <- parse_equation r2;
  Ok (BCmp o e1 e2).

(** h 685-690; the operands of == are swapped *)
Definition parse_bool_eq (r : reader) : outcome (bnode T) :=
  let (p, found) := find_bwd r "=" in
  if found then
    if 0 <? p then
      if ascii_dec (rd r (p - 1)) "=" then
        do r2 <- sub_from r (p + 1);
        do e2 <- parse_equation r2;
        do e1 <- parse_equation (sub_prefix r (p - 1));
        Ok (BCmp CEq e2 e1)
      else Throw
    else UB (* first[pos - 1] with the unsigned pos = 0 *)
  else Throw.

(** h 659-675 *)
Definition parse_bool_cmp (r : reader) : outcome (bnode T) :=
  let (p, found) := find_bwd r ">" in
  if found then
    if ascii_dec (rd r (p + 1)) "=" then parse_cmp CGe r p 2 else parse_cmp CGt r p 1
  else
    let (p, found) := find_bwd r "<" in
    if found then
      if ascii_dec (rd r (p + 1)) "=" then parse_cmp CLe r p 2 else parse_cmp CLt r p 1
    else parse_bool_eq r.

(** EquationContext::ParseBooleanExpression, h 638-691.  An empty window makes operator<< read first[UINT_MAX]: UB. *)
Definition parse_boolean_body (r0 : reader) : outcome (bnode T) :=
  let r := apply_formatting r0 in
  if req r (lit "true") then Ok (BConst true)
  else if req r (lit "false") then Ok (BConst false)
  else match win r with
  | [] => UB
  | _ =>
      let (p, found) := find_bwd r "|" in
      if found then parse_log LOr r p else
      let (p, found) := find_bwd r "^" in
      if found then parse_log LXor r p else
      let (p, found) := find_bwd r "&" in
      if found then parse_log LAnd r p else
      let (p, found) := find_bwd r "!" in
      if found then do r1 <- sub_shift r; do b <- parse_boolean r1; Ok (BNot b) else
      parse_bool_cmp r
  end.
End Body.

(** The two mutually recursive parsers with bounded recursion depth. *)
Fixpoint parse (fuel : nat) : (reader -> outcome (dnode T)) * (reader -> outcome (bnode T)) :=
  match fuel with
  | 0 => (fun _ => Abort, fun _ => Abort)
  | S fuel =>
      let '(pe, pb) := parse fuel in
      (parse_equation_body pe pb, parse_boolean_body pe pb)
  end.

(** EquationContext::ParseEquation(std::string), h 534-540 *)
Definition parse_string (s : chars) : outcome (dnode T) :=
  let s := lowercase s in
  fst (parse ((2 + List.length s) * (2 + List.length s))) (reader_of s).

(** BoundaryConditionFunctor(const std::string&), h 705-730: None is the functor without an expression *)
Definition functor_of (s : chars) : outcome (option (dnode T)) :=
  match s with
  | [] => Ok None
  | _ => do e <- parse_string s; Ok (Some (doptimize A e))
  end.

(** operator()(x, y, z, t), h 781-793 *)
Definition functor_env (x y z t : T) (v : var) : T :=
  match v with VX => x | VY => y | VZ => z | VT => t end.
Definition functor_eval (f : option (dnode T)) (x y z t : T) : outcome T :=
  match f with None => Throw | Some e => Ok (deval A (functor_env x y z t) e) end.

(** ** BoundaryConditionFunctor as an object, h 697-808: its expression and the text it was made from.
    (The members x, y, z, t are overwritten by operator()(x, y, z, t) before they are read.) *)
Record bcfun := BcFun { bf_expr : option (dnode T); bf_text : chars }.
(** the constructor from a string, h 705-730; for the empty string [equation] stays empty *)
Definition bcfun_new (s : chars) : outcome bcfun := do e <- functor_of s; Ok (BcFun e s).
(** the copy constructor, h 731 *)
Definition bcfun_copy (f : bcfun) : outcome bcfun := bcfun_new (bf_text f).
(** operator=(const std::string&), h 737-758: the outcome and the object afterwards (on an exception the old context
    is restored and [expression] has not been assigned) *)
Definition bcfun_assign_text (f : bcfun) (s : chars) : outcome unit * bcfun :=
  match parse_string s with
  | Ok e => (Ok tt, BcFun (Some (doptimize A e)) s)
  | Throw => (Throw, f)
  | Abort => (Abort, f)
  | UB => (UB, f)
  end.
(** operator=(const BoundaryConditionFunctor&), h 732-736 *)
Definition bcfun_assign (f g : bcfun) : outcome unit * bcfun := bcfun_assign_text f (bf_text g).
(** operator()(x, y, z, t), h 781-793 *)
Definition bcfun_call (f : bcfun) (x y z t : T) : outcome T := functor_eval (bf_expr f) x y z t.
End Parse.
