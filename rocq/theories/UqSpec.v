(** Vocabulary of the uncertainty quantification statements. *)
From Coq Require Import NArith Reals.
From Verif Require Import Base Strings InputModel InputSpec Loops BcModel BcSpec UqModel.
Set Implicit Arguments.
Local Open Scope nat_scope.
Local Open Scope list_scope.
Local Notation length := List.length.

(** entry i of a row of numbers *)
Definition at_ (l : list R) (i : nat) : R := nth i l 0%R.
Definition row (l : list (list R)) (i : nat) : list R := nth i l [].

(** the uncertain parameter number i is [name] of block [b] *)
Definition names (u : uq_input) (i : nat) (b : Z) (name : chars) : bool :=
  match nth_error (uq_order u) i with
  | Some bn => (fst bn =? b)%Z && (if list_eq_dec ascii_dec (snd bn) name then true else false)
  | None => false
  end.
(** the sum of range * sample value over the uncertain parameters that are [name] of block [b] *)
Definition perturbation (u : uq_input) (xi : list R) (b : Z) (name : chars) : R :=
  Rsum (length (uq_order u)) (fun i => if names u i b name then param (block_params (uq_ranges u) b) name * at_ xi i else 0)%R.

(** the sample table belongs to the parameters *)
Record samples_ok (nparameters : nat) (q : uq_samples) : Prop := {
  so_rows : length (uq_xi q) = uq_nexact q + uq_napprox q;
  so_row : forall s, s < uq_nexact q + uq_napprox q -> length (row (uq_xi q) s) = nparameters;
  so_coeffs : length (uq_coeffs q) = uq_napprox q;
  so_coeff : forall s, s < uq_napprox q -> length (row (uq_coeffs q) s) = uq_nexact q + 1 }.

(** two fields with the same values on N nodes *)
Definition agree (N : nat) (v w : view) : Prop :=
  shaped N 3 v /\ shaped N 3 w /\ forall n c, n < N -> c < 3 -> v_at v n c = v_at w n c.

Definition no_view : view := View 0 0 (fun _ _ => 0%R).
(** field number i of a list of fields *)
Definition field (l : list view) (i : nat) : view := nth i l no_view.

(** weighted sum of the nominal value and the exact values *)
Definition combination (w : list R) (nominal : R) (exact : nat -> R) (nexact : nat) : R :=
  (nominal * at_ w 0 + Rsum nexact (fun k => exact k * at_ w (k + 1)))%R.

(** One line "uq parameters" of a material: the uncertain parameters with their ranges, the block,
    and the text of the nominal parameters. *)
Record uq_line := UqLine { ul_block : Z; ul_ranges : list (chars * chars); ul_nominal : chars }.
Definition line_text (l : uq_line) : chars := unwords (flat (ul_ranges l)).
(** a word of a line *)
Definition word (w : chars) : Prop := w <> [] /\ none_of white w.
Fixpoint lines_order (ls : list uq_line) : list (Z * chars) :=
  match ls with [] => [] | l :: ls => map (fun e => (ul_block l, fst e)) (ul_ranges l) ++ lines_order ls end.

(** what a block adds to entry (n, c) of a force *)
Definition entry_of (r : outcome (nat -> nat -> R)) (n c : nat) : R := match r with Ok g => g n c | _ => 0%R end.
Definition succeeds {A} (r : outcome A) : Prop := exists a, r = Ok a.
Definition sum_over {A} (l : list A) (f : A -> R) : R := fold_right (fun a s => (f a + s)%R) 0%R l.
(** the moduli of sample k in block b *)
Definition moduli (p : sample_params) (b : Z) (k : nat) : option (R * R) :=
  match sample_parameters p b k with
  | Ok r => Some (param r (lit "bulk_modulus"), param r (lit "shear_modulus"))
  | _ => None
  end.

(** an exact sample all of whose parameter values are 0, i.e. the nominal point *)
Definition unperturbed_exact (q : uq_samples) (j : nat) : Prop :=
  j < uq_nexact q /\ forall i, at_ (row (uq_xi q) j) i = 0%R.
(** or an approximate one whose weights sum to one and only involve the nominal run and such samples *)
Definition unperturbed (q : uq_samples) (j : nat) : Prop :=
  unperturbed_exact q j \/
  exists s, j = uq_nexact q + s /\ s < uq_napprox q /\
    let w := row (uq_coeffs q) s in
    (at_ w 0 + Rsum (uq_nexact q) (fun k => at_ w (k + 1)) = 1)%R /\
    forall k, k < uq_nexact q -> at_ w (k + 1) = 0%R \/ unperturbed_exact q k.

(** freshly allocated fields: N nodes, all zero, one displacement, velocity and force per sample *)
Definition blank_field (N : nat) (v : view) : Prop := shaped N 3 v /\ forall n c, n < N -> c < 3 -> v_at v n c = 0%R.
Record fresh (N ns : nat) (st : uq_state) : Prop := {
  fr_disp : blank_field N (k_disp (us_kin st)); fr_vel : blank_field N (k_vel (us_kin st));
  fr_acc : blank_field N (us_acc st); fr_force : blank_field N (us_force st); fr_ext : blank_field N (us_ext st);
  fr_disps : length (us_disps st) = ns /\ Forall (blank_field N) (us_disps st);
  fr_vels : length (k_off (us_kin st)) = ns /\ Forall (blank_field N) (k_off (us_kin st));
  fr_forces : length (us_forces st) = ns /\ Forall (blank_field N) (us_forces st) }.

(** A samples file: the two counts, the exact samples, one line each, the approximate samples with
    their weights.  The numbers are texts. *)
Record samples_text := SamplesText { st_exact : list (list chars); st_approx : list (list chars * list chars) }.
Definition samples_lines (t : samples_text) : list chars :=
  (MeshTextModel.show_int (Z.of_nat (length (st_exact t))) ++ " "%char :: MeshTextModel.show_int (Z.of_nat (length (st_approx t)))) ::
  map unwords (st_exact t) ++
  map (fun a => unwords (fst a) ++ " "%char :: ":"%char :: " "%char :: unwords (snd a)) (st_approx t).
Definition samples_file (t : samples_text) : chars := MeshTextModel.file_of_lines (samples_lines t).
(** the texts are words without colon, n numbers for each sample and one weight more than exact samples *)
Definition number_text (w : chars) : Prop := word w /\ ~ In ":"%char w.
Record samples_text_ok (n : nat) (t : samples_text) : Prop := {
  sto_count : (Z.of_nat (length (st_exact t)) + Z.of_nat (length (st_approx t)) < 2 ^ 31)%Z;
  sto_exact : Forall (fun l => length l = n /\ Forall number_text l) (st_exact t);
  sto_approx : Forall (fun a => length (fst a) = n /\ length (snd a) = length (st_exact t) + 1 /\ Forall number_text (fst a) /\ Forall number_text (snd a)) (st_approx t) }.
