(** Model of the host ModelData over all ranks: ComputeLumpedMass and ComputeInternalForce
    (src/nimble_model_data.cc 495-530, 621-669): every rank loops over its blocks and sums the result
    over the ranks (DataManager::Initialize, nimble_data_manager.cc 80-101, set up the communicator).
    The material of a block is given by [hb_stress] (stress of an element for its deformation
    gradients), its bulk modulus and density; the element data containers are modelled in ElemDataModel. *)
From Verif Require Import Base Loops TensorModel ElementModel BlockModel MpiModel MpiFinal.
From Coq Require Import Reals.
Set Implicit Arguments.
Local Open Scope nat_scope.

(** A block of a rank: density, number of elements, connectivity (local node numbers), material, and
    the order in which its elements are processed *)
Record hblock := HBlock { hb_density : R; hb_num : nat; hb_conn : nat -> nat; hb_stress : nat -> arr -> outcome arr; hb_order : list nat }.
(** A rank: global ids of its nodes, blocks in the order of the map, fields, uninitialised memory *)
Record hrank := HRank { hr_ids : list Z; hr_blocks : list hblock; hr_ref : arr; hr_disp : arr; hr_junk : arr }.

(** ComputeLumpedMass up to the reduction, 495-521; the field is not zeroed *)
Definition rank_lumped_mass (r : hrank) (lumped_mass : arr) : outcome arr :=
  ofold (fun l b => block_lumped_mass (hb_density b) (hr_ref r) (hb_num b) (hb_conn b) (hr_junk r) l) (hr_blocks r) lumped_mass.
(** ComputeInternalForce up to the reduction, 621-661; force.zero() first *)
Definition rank_internal_force (r : hrank) : outcome arr :=
  ofold (fun f b => block_internal_force (hb_stress b) (hr_ref r) (hr_disp r) (hb_order b) (hb_conn b) (hr_junk r) f) (hr_blocks r) (fun _ => 0%R).
(** VectorReduction on all ranks, 523-529 and 663-668: [fs] numbers per node; [sched] is the schedule of
    the ranks and of the answers of MPI_Test *)
Definition reduce_all (fs : nat) (ranks : list hrank) (data : list arr) (sched : list (nat * bool)) : outcome (list (rstate R)) :=
  do cls <- generate_reduction_info (map hr_ids ranks);
  perform_reduction rsum fs cls data sched.
(** what the ranks hold before the field is computed: AllocateNodeData (80-91) gives zeros *)
Definition all_lumped_mass (ranks : list hrank) (sched : list (nat * bool)) : outcome (list (rstate R)) :=
  do data <- omapM (fun r => rank_lumped_mass r (fun _ => 0%R)) ranks;
  reduce_all 1 ranks data sched.
Definition all_internal_force (ranks : list hrank) (sched : list (nat * bool)) : outcome (list (rstate R)) :=
  do data <- omapM rank_internal_force ranks;
  reduce_all 3 ranks data sched.
