(** Vocabulary for the input-text properties, independent of the model's helpers. *)
From Verif Require Import Base Strings.
From Coq Require Import NArith Permutation.
Local Close Scope string_scope.
Local Open Scope list_scope.
Set Implicit Arguments.
Notation length := List.length.

(** white space of the C locale; blanks are the space and the tab *)
Definition white (c : ascii) : Prop :=
  In c [" "; "009"; "010"; "011"; "012"; "013"]%char.
Definition blank (c : ascii) : Prop := In c [" "; "009"]%char.
Definition space (c : ascii) : Prop := c = " "%char.
Definition all_of (P : ascii -> Prop) (s : chars) : Prop := Forall P s.
Definition none_of (P : ascii -> Prop) (s : chars) : Prop := Forall (fun c => ~ P c) s.

(** ** Words of a line *)
(** [s] consists of the words [ws], separated by blanks: a word starts with a non-white character
    and goes on up to the next space (or the end). *)
Inductive splits : chars -> list chars -> Prop :=
| splits_end b : all_of white b -> splits b []
| splits_word b c w rest ws :
    all_of white b -> ~ white c -> none_of space (c :: w) ->
    (rest = [] \/ exists r, rest = " "%char :: r) ->
    splits rest ws -> splits (b ++ (c :: w) ++ rest) ((c :: w) :: ws).

(** [t] is [s] without its leading white space *)
Definition ltrimmed (s t : chars) : Prop :=
  exists b, s = b ++ t /\ all_of white b /\ match t with [] => True | c :: _ => ~ white c end.

(** ** Decimal suffixes of rank files: width digits, leading zeros *)
Definition digits_of (n : N) (s : chars) : Prop :=
  Forall (fun c => is_digit c = true) s /\ undec s = n.
(** minimal decimal notation *)
Definition decimal (n : N) (s : chars) : Prop :=
  digits_of n s /\ forall s', digits_of n s' -> length s <= length s'.
(** ".<count>.<index>" with the index written with as many digits as the count (at least) *)
Definition rank_suffix (count index : N) (s : chars) : Prop :=
  exists c i, s = lit "." ++ c ++ lit "." ++ i /\ decimal count c /\ digits_of index i /\ length i = length c.

(** ** Key/value pairs *)
Fixpoint first_value {V} (k : chars) (l : list (chars * V)) : option V :=
  match l with
  | [] => None
  | (k', v) :: l => if list_eq_dec ascii_dec k k' then Some v else first_value k l
  end.
Definition last_value {V} (k : chars) (l : list (chars * V)) : option V := first_value k (rev l).
(** all values given for a key, in order *)
Definition values {V} (k : chars) (l : list (chars * V)) : list V :=
  map snd (filter (fun e => if list_eq_dec ascii_dec k (fst e) then true else false) l).
Definition or_default {A} (d : A) (o : option A) : A := match o with Some a => a | None => d end.
(** the tokens k1 v1 k2 v2 .. *)
Fixpoint flat {V} (l : list (V * V)) : list V :=
  match l with [] => [] | (k, v) :: l => k :: v :: flat l end.
(** words written one after the other with one space between *)
Fixpoint unwords (ws : list chars) : chars :=
  match ws with [] => [] | [w] => w | w :: ws => w ++ " "%char :: unwords ws end.
(** a word that needs no quotes *)
Definition plain_word (w : chars) : Prop :=
  w <> [] /\ none_of white w /\ none_of (fun c => c = """"%char) w.

(** ** Lines of an input deck *)
(** [deck_line l kv]: the line is empty or a comment (None), or sets a key to a value (Some) *)
Definition comment (s : chars) : Prop := s = [] \/ exists t, s = "#"%char :: t.
Definition trimmed (s : chars) : Prop :=
  s <> [] /\ (forall c t, s = c :: t -> ~ blank c) /\ (forall c t, s = t ++ [c] -> ~ blank c).
Inductive deck_line : chars -> option (chars * chars) -> Prop :=
| deck_comment s : comment s -> deck_line s None
| deck_setting b1 k b2 b3 v b4 com :
    all_of blank b1 -> all_of space b2 -> all_of space b3 -> all_of blank b4 -> comment com ->
    trimmed k -> trimmed v ->
    ~ In "#"%char k -> ~ In "#"%char v -> ~ In ":"%char k ->
    deck_line (b1 ++ k ++ b2 ++ ":"%char :: b3 ++ v ++ b4 ++ com) (Some (k, v)).
(** one line of a text file that fits the reader's buffer *)
Definition text_line (l : chars) : Prop :=
  length l < 1000 /\ ~ In "010"%char l /\ ~ In "000"%char l.
Fixpoint unlines (ls : list chars) : chars :=
  match ls with [] => [] | [l] => l | l :: ls => l ++ "010"%char :: unlines ls end.
Fixpoint settings (kvs : list (option (chars * chars))) : list (chars * chars) :=
  match kvs with
  | [] => []
  | Some kv :: kvs => kv :: settings kvs
  | None :: kvs => settings kvs
  end.

(** the keys of an input deck; the last two only in a build with UQ *)
Definition plain_keys : list chars := map lit
  ["genesis input file"; "exodus output file"; "use two level mesh decomposition"; "write timing data file";
   "time integration scheme"; "nonlinear solver relative tolerance"; "nonlinear solver maximum iterations";
   "initial time"; "final time"; "number of load steps"; "output frequency"; "contact"; "contact backend";
   "contact visualization"; "material parameters"; "element block"; "boundary condition"; "output fields";
   "contact dicing"; "contact splitting"]%string.
Definition uq_keys : list chars := map lit ["uq parameters"; "uq model"]%string.

(** spellings of yes and no, in any mixture of upper and lower case *)
Definition upper (c : ascii) : ascii :=
  if ((97 <=? N_of_ascii c) && (N_of_ascii c <=? 122))%N then ascii_of_N (N_of_ascii c - 32) else c.
Definition says_yes (v : chars) : Prop := In (map upper v) (map lit ["TRUE"; "YES"; "ON"]%string).
Definition says_no (v : chars) : Prop := In (map upper v) (map lit ["FALSE"; "NO"; "OFF"]%string).
(** decimal notation of an int *)
Definition int_notation (z : Z) (s : chars) : Prop :=
  exists ds, ds <> [] /\ Forall (fun c => is_digit c = true) ds /\
    ((s = ds /\ z = Z.of_N (undec ds)) \/ (s = "-"%char :: ds /\ z = (- Z.of_N (undec ds))%Z)).
Definition int_range (z : Z) : Prop := (- 2 ^ 31 <= z < 2 ^ 31)%Z.

(** ** Element blocks and materials *)
(** "<stem>_<number> <material>" *)
Definition block_entry (v : chars) (e : Z * chars) : Prop :=
  exists stem ds, v = stem ++ lit "_" ++ ds ++ lit " " ++ snd e /\
    none_of space stem /\ ds <> [] /\ digits_of (Z.to_N (fst e)) ds /\ (0 <= fst e)%Z /\ int_range (fst e).
(** "<material> <description>" *)
Definition material_entry (v : chars) (e : chars * chars) : Prop :=
  v = fst e ++ lit " " ++ snd e /\ none_of space (fst e).
Fixpoint last_of (id : Z) (l : list (Z * chars)) : option chars :=
  match l with
  | [] => None
  | (i, m) :: l => match last_of id l with Some x => Some x | None => if (id =? i)%Z then Some m else None end
  end.
