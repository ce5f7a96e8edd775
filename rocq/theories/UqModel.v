(** Model of the uncertainty quantification code.
    Sources: src/uq/nimble_uq.{h,cc}, src/uq/nimble_uq_model_data.cc, src/uq/nimble_uq_block.cc and
    the calls in src/integrators/explicit_time_integrator.cc.
    Doubles are real numbers; std::stod is an arbitrary function from text to a number or an
    exception; the internal force of a block (element and material code, modelled in ElementModel.v
    and MaterialModel.v) is an arbitrary function of the block, of the moduli and of the
    displacement.  Three dimensions.  Nodal fields "exact_.." and "sample_.." (Allocate, Setup,
    nimble_uq.cc 276-321) are the entries of lists of views.  WriteSamples is not modelled. *)
From Coq Require Import NArith Reals.
From Verif Require Import Base Strings InputModel MeshTextModel Loops BcModel IntegratorModel.
Set Implicit Arguments.
Local Open Scope nat_scope.
Local Open Scope list_scope.
Local Notation length := List.length.

(** std::stoi on a word *)
Definition stoi (w : chars) : outcome Z :=
  match int_prefix (skip_ws w) with
  | Some (z, _) => if in_int z then Ok z else Throw
  | None => Throw
  end.

(** the maps of material parameters *)
Definition params := list (chars * R).
Definition param (p : params) (name : chars) : R := match assoc chars_eqb name p with Some v => v | None => 0%R end.
(** std::map<int, std::map<std::string, double>>::operator[] *)
Definition block_params (m : list (Z * params)) (b : Z) : params := match assoc Z.eqb b m with Some p => p | None => [] end.

(** nominal_parameters_, parameter_uncertainties_, parameter_order_ (nparameters_ is its length) *)
Record uq_input := UqInput { uq_nominal : list (Z * params); uq_ranges : list (Z * params); uq_order : list (Z * chars) }.
(** nexact_samples_, napprox_samples_, parameter_samples_, interpolation_coefficients_ *)
Record uq_samples := UqSamples { uq_nexact : nat; uq_napprox : nat; uq_xi : list (list R); uq_coeffs : list (list R) }.

Section Input.
  Variable stod : chars -> outcome R.
  (** MaterialFactoryBase::parse_material_params_string (InputModel.parse_material_map) *)
  Variable parse_material : chars -> outcome params.

  (** UqModel::ParseConfiguration, nimble_uq.cc 93-105: the name of the samples file; list::front()
      of an empty list is undefined *)
  Definition parse_configuration (line : chars) (samples_file_name : chars) : outcome chars :=
    match words None line with
    | [] => UB
    | w :: ws => if chars_eqb w (lit "file") then match ws with [] => UB | f :: _ => Ok f end
                 else Ok samples_file_name       (* a message on the console *)
    end.

  (** the loop of UqModel::ParseBlockInput, nimble_uq.cc 124-134 *)
  Fixpoint read_ranges (block_id : Z) (items : list chars) (u : uq_input) : outcome uq_input :=
    match items with
    | [] => Ok u
    | [_] => UB                                    (* items.front() of an empty list *)
    | pname :: r :: items =>
        do range <- stod r;
        let ranges := assoc_set Z.eqb block_id (assoc_set chars_eqb pname range (block_params (uq_ranges u) block_id)) (uq_ranges u) in
        read_ranges block_id items (UqInput (uq_nominal u) ranges (uq_order u ++ [(block_id, pname)]))
    end.
  (** UqModel::ParseBlockInput, nimble_uq.cc 111-144 *)
  Definition parse_block_input (line : chars) (block_id : Z) (nominal_params_string : chars) (u : uq_input) : outcome uq_input :=
    if chars_eqb line (lit "none") then Throw
    else
      do u <- read_ranges block_id (words None line) u;
      do p <- parse_material nominal_params_string;
      Ok (UqInput (assoc_set Z.eqb block_id p (uq_nominal u)) (uq_ranges u) (uq_order u)).
  (** the loop of ModelData::InitializeBlocks, nimble_uq_model_data.cc 78-86, in the order of the
      material names: each entry is the text of a "uq parameters" line, the block found for the
      material and the text of its nominal parameters *)
  Definition parse_blocks (lines : list (chars * Z * chars)) : outcome uq_input :=
    ofold (fun u e => parse_block_input (fst (fst e)) (snd (fst e)) (snd e) u) lines (UqInput [] [] []).

  (** n items become numbers, in order *)
  Definition numbers (items : list chars) : outcome (list R) := omapM stod items.

  (** nimble_uq.cc 169-181: the exact samples *)
  Fixpoint read_exact (nparameters n : nat) (str : chars) (ls : list chars) : outcome (list (list R) * chars * list chars) :=
    match n with
    | 0 => Ok ([], str, ls)
    | S n =>
        let '(str, ls) := getline str ls in
        let items := words None str in
        if negb (length items =? nparameters) then Throw
        else do row <- numbers items;
             do r <- read_exact nparameters n str ls;
             Ok (row :: fst (fst r), snd (fst r), snd r)
    end.
  (** nimble_uq.cc 186-217: the approximate samples, parameters and coefficients *)
  Fixpoint read_approx (nparameters ncoeff n : nat) (str : chars) (ls : list chars) : outcome (list (list R) * list (list R)) :=
    match n with
    | 0 => Ok ([], [])
    | S n =>
        let '(str, ls) := getline str ls in
        match find_char ":" str with
        | None => Throw
        | Some pos =>
            let items := words None (firstn pos str) in
            if negb (length items =? nparameters) then Throw
            else
              do row <- numbers items;
              let items := words None (skipn (pos + 1) str) in
              if negb (length items =? ncoeff) then Throw
              else do c <- numbers items;
                   do r <- read_approx nparameters ncoeff n str ls;
                   Ok (row :: fst r, c :: snd r)
        end
    end.
  (** UqModel::ReadSamples, nimble_uq.cc 146-219; a file that cannot be opened behaves like an empty
      one.  A negative number of exact samples with a non-negative total, which makes the code index
      before the start of a vector or throw, is UB here. *)
  Definition read_samples (nparameters : nat) (file : chars) : outcome uq_samples :=
    let '(str, ls) := getline [] (file_lines file) in
    match words None str with
    | e :: a :: _ =>
        do nexact <- stoi e;
        do napprox <- stoi a;
        if negb (in_int (napprox + nexact)) then UB
        else if ((napprox + nexact <? 0) || (napprox <? 0))%Z then Throw     (* std::length_error *)
        else if (nexact <? 0)%Z then UB
        else
          do r <- read_exact nparameters (Z.to_nat nexact) str ls;
          do s <- read_approx nparameters (Z.to_nat nexact + 1) (Z.to_nat napprox) (snd (fst r)) (snd r);
          Ok (UqSamples (Z.to_nat nexact) (Z.to_nat napprox) (fst (fst r) ++ fst s) (snd s))
    | w :: [] => do _ <- stoi w; UB
    | [] => UB
    end.
End Input.

(** UqModel::ScaleParameters, nimble_uq.cc 221-246: parameters_, block by block the parameters of
    every sample *)
Definition sample_params := list (Z * list params).
Definition scale_one (u : uq_input) (q : uq_samples) (p : sample_params) (i : nat) : outcome sample_params :=
  do bn <- vget (uq_order u) i;
  let block_id := fst bn in let name := snd bn in
  oloop 0 (uq_nexact q + uq_napprox q) (fun s p =>
    let rows := match assoc Z.eqb block_id p with Some r => r | None => [] end in
    do row <- vget rows s;
    let p0 := param row name in
    let dpdxi := param (block_params (uq_ranges u) block_id) name in
    do xi <- vget (uq_xi q) s;
    do dxi <- vget xi i;
    let v := (p0 + dpdxi * dxi)%R in
    Ok (assoc_set Z.eqb block_id (list_set rows s (assoc_set chars_eqb name v row)) p)) p.
Definition scale_parameters (u : uq_input) (q : uq_samples) : outcome sample_params :=
  let start := map (fun e => (fst e, repeat (snd e) (uq_nexact q + uq_napprox q))) (uq_nominal u) in
  ofold (scale_one u q) (seq 0 (length (uq_order u))) start.
(** UqModel::Parameters, nimble_uq.h 152-156 *)
Definition sample_parameters (p : sample_params) (b : Z) (s : nat) : outcome params :=
  vget (match assoc Z.eqb b p with Some r => r | None => [] end) s.

(** UqModel::ApplyClosure, nimble_uq.cc 323-345 (node n and component c stand for the index
    i = 3 n + c) *)
Definition close_entry (nexact : nat) (row : list R) (nominal : view) (forces : list view) (n c : nat) (f : view) : outcome view :=
  do c0 <- vget row 0;
  do x <- view_get nominal n c;
  do f <- view_set f n c (x * c0)%R;
  oloop 0 nexact (fun k f =>
    do fk <- vget forces k;
    do e <- view_get fk n c;
    do w <- vget row (k + 1);
    do cur <- view_get f n c;
    view_set f n c (cur + e * w)%R) f.
Definition apply_closure (num_nodes : nat) (q : uq_samples) (nominal : view) (forces : list view) : outcome (list view) :=
  oloop 0 (uq_napprox q) (fun s forces =>
    do f <- vget forces (s + uq_nexact q);
    do row <- vget (uq_coeffs q) s;
    do f' <- oloop 0 num_nodes (fun n f => oloop 0 3 (fun c f => close_entry (uq_nexact q) row nominal forces n c f) f) f;
    vset forces (s + uq_nexact q) f') forces.

(** What a block adds to a force field: [block_force b None u] with the material's own parameters
    (nimble::Block::ComputeInternalForce), [block_force b (Some (K, G)) u] with the given moduli
    (nimble_uq_block.cc 81-165; GetOffNominalStress, nimble_material.cc 130-157, 314-341). *)
Definition block_force_t := Z -> option (R * R) -> view -> outcome (nat -> nat -> R).
Definition view_add (v : view) (g : nat -> nat -> R) : view := View (v_nodes v) (v_cols v) (fun n c => v_at v n c + g n c)%R.

(** ModelData::ComputeInternalForce, nimble_uq_model_data.cc 147-218; [reduce] is
    VectorCommunicator::VectorReduction *)
Section Force.
  Variables (block_force : block_force_t) (reduce : view -> view).
  (** one block: the nominal force, then the exact samples *)
  Definition block_forces (q : uq_samples) (p : sample_params) (disp : view) (disps : list view)
      (st : view * list view) (b : Z) : outcome (view * list view) :=
    do g <- block_force b None disp;
    do fs <- oloop 0 (uq_nexact q) (fun k (fs : list view) =>
      do u <- vget disps k;
      do f <- vget fs k;
      do pr <- sample_parameters p b k;
      do g <- block_force b (Some (param pr (lit "bulk_modulus"), param pr (lit "shear_modulus"))) u;
      vset fs k (view_add f g)) (snd st);
    Ok (view_add (fst st) g, fs).
  Definition uq_internal_force (num_nodes : nat) (q : uq_samples) (p : sample_params) (blocks : list Z) (disp : view) (disps : list view)
      (force : view) (forces : list view) : outcome (view * list view) :=
    do zeroed <- oloop 0 (uq_nexact q + uq_napprox q) (fun i fs => do f <- vget fs i; vset fs i (view_zero f)) forces;
    do r <- ofold (block_forces q p disp disps) blocks (view_zero force, zeroed);
    let force := reduce (fst r) in
    (* for (int i = 0; i <= num_exact_trajectories; i++) *)
    do forces <- oloop 0 (uq_nexact q + 1) (fun i fs => do f <- vget fs i; vset fs i (reduce f)) (snd r);
    do forces <- apply_closure num_nodes q force forces;
    Ok (force, forces).
End Force.

(** The data of a run: the manager of boundary conditions, displacement, velocity and sample
    velocities (kin), sample displacements, acceleration, internal force, external force, sample
    forces, time. *)
Record uq_state := UqState {
  us_mgr : manager; us_kin : kin; us_disps : list view; us_acc : view; us_force : view; us_ext : view;
  us_forces : list view; us_time : R }.

Section Step.
  Variables (block_force : block_force_t) (reduce : view -> view).
  Variables (num_nodes : nat) (mass : list R) (q : uq_samples) (p : sample_params) (blocks : list Z) (ref : view).

  (** v[i] += dt * (1 / m) * (f[i] + f_ext[i]) for all entries, nimble_uq_model_data.cc 220-236 *)
  Definition kick_sample (dt : R) (ext f v : view) : outcome view :=
    oloop 0 num_nodes (fun n v => oloop 0 3 (fun c v =>
      do m <- vget mass n;
      do x <- view_get f n c;
      do e <- view_get ext n c;
      do cur <- view_get v n c;
      view_set v n c (cur + dt * ((1 / m) * (x + e)))%R) v) v.
  (** ModelData::UpdateWithNewVelocity *)
  Definition update_with_new_velocity (dt : R) (ext : view) (forces vels : list view) : outcome (list view) :=
    oloop 0 (uq_nexact q + uq_napprox q) (fun s vels =>
      do f <- vget forces s; do v <- vget vels s; do v' <- kick_sample dt ext f v; vset vels s v') vels.
  (** ModelData::UpdateWithNewDisplacement, nimble_uq_model_data.cc 238-248 *)
  Definition update_with_new_displacement (dt : R) (vels disps : list view) : outcome (list view) :=
    oloop 0 (uq_nexact q + uq_napprox q) (fun s disps =>
      do u <- vget disps s; do v <- vget vels s; do u' <- view_axpy u dt v; vset disps s u') disps.

  (** explicit_time_integrator.cc 251-257 (no contact) *)
  Definition uq_acceleration (force ext acc : view) : outcome view :=
    oloop 0 num_nodes (fun n acc => oloop 0 3 (fun c acc =>
      do m <- vget mass n; do x <- view_get force n c; do e <- view_get ext n c;
      view_set acc n c ((1 / m) * (x + e))%R) acc) acc.

  (** the body of the time stepping loop without output and contact, explicit_time_integrator.cc
      193-262, on a UQ model *)
  Definition uq_step (dt : R) (st : uq_state) : outcome uq_state :=
    let t := (us_time st + dt)%R in
    let h := (1 / 2 * dt)%R in
    do v <- view_axpy (k_vel (us_kin st)) h (us_acc st);
    do vs <- update_with_new_velocity h (us_ext st) (us_forces st) (k_off (us_kin st));
    do r <- apply_kinematic (us_mgr st) t (us_time st) ref (Kin (k_disp (us_kin st)) v vs);
    let k := snd r in
    do d <- view_axpy (k_disp k) dt (k_vel k);
    do ds <- update_with_new_displacement dt (k_off k) (us_disps st);
    do r <- apply_kinematic (fst r) t (us_time st) ref (Kin d (k_vel k) (k_off k));
    let k := snd r in
    let ext := view_zero (us_ext st) in
    do ff <- uq_internal_force block_force reduce num_nodes q p blocks (k_disp k) ds (us_force st) (us_forces st);
    do acc <- uq_acceleration (fst ff) ext (us_acc st);
    do v <- view_axpy (k_vel k) h acc;
    do vs <- update_with_new_velocity h ext (snd ff) (k_off k);
    Ok (UqState (fst r) (Kin (k_disp k) v vs) ds acc (fst ff) ext (snd ff) t).
  (** explicit_time_integrator.cc 146-147, then n steps *)
  Definition uq_start (st : uq_state) : outcome uq_state :=
    do r <- apply_initial (us_mgr st) ref (us_kin st);
    do r <- apply_kinematic (fst r) 0 0 ref (snd r);
    Ok (UqState (fst r) (snd r) (us_disps st) (us_acc st) (us_force st) (us_ext st) (us_forces st) (us_time st)).
  Definition uq_run (n : nat) (dt : R) (st : uq_state) : outcome uq_state :=
    do s <- uq_start st;
    oloop 0 n (fun _ s => uq_step dt s) s.
End Step.
