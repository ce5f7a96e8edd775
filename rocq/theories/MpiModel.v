(** Model of the MPI vector reduction: set-up and run time.
    Sources: src/nimble.mpi.reduction.h, src/nimble.mpi.reduction.cc,
    src/nimble.mpi.rank_clique_reducer.h, src/nimble.quanta.h,
    src/nimble.quanta.arrayview.h, src/nimble.mpi.mpicontext.h.

    Node ids and clique numbers are C++ ints in the code; they are unbounded Z here
    (simplification: overflow of the clique counter needs more than 2^31 cliques). *)
From Verif Require Import Base ListLemmas.
Local Open Scope Z_scope.

(** ** quanta helpers *)

(** nimble.quanta.arrayview.h 173-185, partition_into_arrayviews: consecutive views of the
    given sizes.  A view reaching past the end of the vector is clipped here; the code would
    read out of bounds.  The proofs only use it with counts that add up to the length. *)
Fixpoint partition_into_arrayviews {A} (values : list A) (counts : list nat) : list (list A) :=
  match counts with
  | [] => []
  | c :: counts => firstn c values :: partition_into_arrayviews (skipn c values) counts
  end.

(** std::unordered_map<int,int>::operator[] with default 0, as used through
    quanta::make_indexer (reduction.cc 82-84): a total function to Z. *)
Definition updZ {A} (f : Z -> A) (k : Z) (v : A) : Z -> A :=
  fun x => if Z.eqb x k then v else f x.

(** ** Clique detection *)

(** State of fill_clique_lookup (nimble.mpi.reduction.h 192-230): the lookup table, the
    per-rank table of remapped cliques and the counter of fresh clique numbers
    (quanta::invoke_counter_t, nimble.quanta.h 123-163: returns the count, then increments). *)
Record clique_state := CS { cs_lookup : Z -> Z; cs_remap : list (Z * Z); cs_next : Z }.

(** Body of the inner loop, nimble.mpi.reduction.h 211-226. *)
Definition visit_id (rank_plus_one : Z) (s : clique_state) (id : Z) : clique_state :=
  let current := cs_lookup s id in
  if current =? 0 then
    CS (updZ (cs_lookup s) id rank_plus_one) (cs_remap s) (cs_next s)
  else
    match assoc Z.eqb current (cs_remap s) with
    | Some c => CS (updZ (cs_lookup s) id c) (cs_remap s) (cs_next s)
    | None => CS (updZ (cs_lookup s) id (cs_next s))
                 ((current, cs_next s) :: cs_remap s) (cs_next s + 1)
    end.

(** Outer loop, nimble.mpi.reduction.h 207-227: the remap table is cleared and rank_plus_one
    incremented for every rank. *)
Fixpoint visit_ranks (rank : Z) (ids_by_rank : list (list Z)) (s : clique_state) : clique_state :=
  match ids_by_rank with
  | [] => s
  | ids :: rest =>
      visit_ranks (rank + 1) rest
        (fold_left (visit_id (rank + 1)) ids (CS (cs_lookup s) [] (cs_next s)))
  end.

(** fill_clique_lookup on an empty table; returns the table and the final counter value
    (nimble.mpi.reduction.h 205, 228). *)
Definition fill_clique_lookup (ids_by_rank : list (list Z)) : (Z -> Z) * Z :=
  let s := visit_ranks 0 ids_by_rank
             (CS (fun _ => 0) [] (Z.of_nat (length ids_by_rank) + 1)) in
  (cs_lookup s, cs_next s).

(** ** Set-up on all ranks: GenerateReductionInfo *)

(** nimble.mpi.reduction.cc 57-106.  The ranks' id lists are gathered (MPI_Gatherv) on the
    root, every id replaced by its clique number and the pieces scattered back
    (MPI_Scatterv).  MPI collectives are modelled by their contract: concatenation in rank
    order, and splitting by the counts. *)
Definition clique_assignments (ids_by_rank : list (list Z)) : list (list Z) * Z :=
  let counts := map (@length Z) ids_by_rank in
  let all_global_ids := concat ids_by_rank in
  let views := partition_into_arrayviews all_global_ids counts in
  let '(lookup, num_cliques) := fill_clique_lookup views in
  (partition_into_arrayviews (map lookup all_global_ids) counts, num_cliques).

(** nimble.mpi.reduction.cc 112-115: clique_ids = sort + unique of the assignment. *)
Definition clique_ids_of (assignment : list Z) : list Z := zsort_uniq assignment.

(** nimble.mpi.reduction.cc 116-117: clique_colors(num_cliques, MPI_UNDEFINED);
    clique_colors[i] = 1 for every own clique.  true = colour 1, false = MPI_UNDEFINED.
    An index outside the vector is undefined behaviour. *)
Definition clique_colors_of (num_cliques : Z) (clique_ids : list Z) : outcome (list bool) :=
  ofold (fun colors i => if i <? 0 then UB else vset colors (Z.to_nat i) true)
        clique_ids (repeat false (Z.to_nat num_cliques)).

(** A sub-communicator: identified by the ordinal of the MPI_Comm_split call that created it
    (collective over all ranks), with the member ranks in rank order. *)
Record comm := Comm { comm_call : nat; comm_members : list nat }.

(** Contract of MPI_Comm_split call number [call] when rank q passes colour
    [nth call (nth q colors)] (mpicontext::split_by_color): ranks passing colour 1 form one
    communicator, ranks passing MPI_UNDEFINED get MPI_COMM_NULL. *)
Definition color_at (colors : list (list bool)) (q call : nat) : bool :=
  nth call (nth q colors []) false.
Definition split_members (colors : list (list bool)) (call : nat) : list nat :=
  filter (fun q => color_at colors q call) (seq 0 (length colors)).

(** The collective calls rank [r] performs while building its ReductionInfo, in order:
    one split per entry of clique_colors (nimble.mpi.reduction.h 105-109). *)
Definition split_calls (colors : list (list bool)) (r : nat) : list nat :=
  seq 0 (length (nth r colors [])).

(** nimble.mpi.reduction.h 102-110: the communicators rank r keeps. *)
Definition comms_of (colors : list (list bool)) (r : nat) : list comm :=
  map (fun call => Comm call (split_members colors call))
      (filter (fun call => color_at colors r call) (split_calls colors r)).

(** Index list of a clique: nimble.mpi.reduction.h 97-100 (indices in increasing order for
    clique numbers above the number of ranks) and 118 (std::sort by global id; the ids of a
    rank are distinct, so the sorted order is unique). *)
Definition index_list (num_ranks : nat) (assignment global_ids : list Z) (clique_id : Z) : list nat :=
  isort (fun a b => (nth a global_ids 0 <=? nth b global_ids 0))
    (filter (fun i => (nth i assignment 0 =? clique_id) &&
                      (Z.of_nat num_ranks <? nth i assignment 0))
            (seq 0 (length assignment))).

(** ReductionClique_t, nimble.mpi.rank_clique_reducer.h 58-67: what it keeps per clique
    (buffers and the request live in the run-time state below).  buffersize = 3 * n_indices
    (nimble.mpi.reduction.h 119). *)
Record clique := Clique { cl_indices : list nat; cl_buffersize : nat; cl_comm : comm }.

(** ReductionInfo constructor, nimble.mpi.reduction.h 78-121, on rank r. *)
Definition reduction_info (num_ranks : nat) (colors : list (list bool)) (r : nat)
           (clique_ids assignment global_ids : list Z) : outcome (list clique) :=
  let comms := comms_of colors r in
  if (length comms =? length clique_ids)%nat then
    Ok (map (fun '(cid, cm) =>
               let il := index_list num_ranks assignment global_ids cid in
               Clique il (length il * 3) cm)
            (combine clique_ids comms))
  else Abort.

(** The colour vectors all ranks build, nimble.mpi.reduction.cc 112-117. *)
Definition rank_colors (ids_by_rank : list (list Z)) : outcome (list (list bool)) :=
  let '(assignments, num_cliques) := clique_assignments ids_by_rank in
  omapM (fun a => clique_colors_of num_cliques (clique_ids_of a)) assignments.

(** GenerateReductionInfo on all ranks together, nimble.mpi.reduction.cc 50-122. *)
Definition generate_reduction_info (ids_by_rank : list (list Z)) : outcome (list (list clique)) :=
  let '(assignments, _) := clique_assignments ids_by_rank in
  let n := length ids_by_rank in
  do colors <- rank_colors ids_by_rank;
  omapM (fun r => reduction_info n colors r (clique_ids_of (nth r assignments []))
                    (nth r assignments []) (nth r ids_by_rank []))
        (seq 0 n).

(** ** Run time *)

Section Run.
  Context {T : Type}.
  (** What MPI_Iallreduce(MPI_SUM) computes from the contributions of the members in rank
      order; arbitrary here, instantiated with the sum of real numbers in the theorems. *)
  Variable allreduce : list T -> T.

  (** Memory of a rank: the flat array of node data (index * field_size + component). *)
  Definition memory := nat -> T.
  Definition mupd (m : memory) (a : nat) (v : T) : memory :=
    fun x => if (x =? a)%nat then v else m x.

  (** pack, nimble.mpi.rank_clique_reducer.h 130-143 (and 160-170 for a Lookup). *)
  Definition pack (fs : nat) (indices : list nat) (m : memory) : list T :=
    flat_map (fun i => map (fun j => m (i * fs + j)%nat) (seq 0 fs)) indices.

  (** unpack, nimble.mpi.rank_clique_reducer.h 144-158 (and 171-179): writes the receive
      buffer back in the same order; reading past the buffer would be undefined behaviour. *)
  Fixpoint unpack_cells (addrs : list nat) (buf : list T) (m : memory) : outcome memory :=
    match addrs with
    | [] => Ok m
    | a :: addrs => match buf with
                    | [] => UB
                    | v :: buf => unpack_cells addrs buf (mupd m a v)
                    end
    end.
  Definition cells (fs : nat) (indices : list nat) : list nat :=
    flat_map (fun i => map (fun j => (i * fs + j)%nat) (seq 0 fs)) indices.
  Definition unpack (fs : nat) (indices : list nat) (buf : list T) (m : memory) : outcome memory :=
    unpack_cells (cells fs indices) buf m.

  (** Program counter of a rank inside ReductionInfo::Reduce (nimble.mpi.reduction.h 127-149). *)
  Inductive pc :=
  | PInit (k : nat)                         (* next clique to initialise, line 131 *)
  | PPoll (unfinished : list nat) (i : nat) (* inside the while/for, lines 136-147 *)
  | PDone                                   (* Reduce returned *)
  | PThrow                                  (* std::invalid_argument from EnsureDataSafety *)
  | PAbort                                  (* NIMBLE_ABORT *)
  | PUB.                                    (* undefined behaviour *)

  (** Run-time state of a rank: memory, the send buffer registered with each split call's
      communicator, the exists_active_asyncreduce_request flags by clique position, pc. *)
  Record rstate := RS {
    rs_mem : memory;
    rs_send : nat -> option (list T);
    rs_active : nat -> bool;
    rs_pc : pc }.

  Definition updN {A} (f : nat -> A) (k : nat) (v : A) : nat -> A :=
    fun x => if (x =? k)%nat then v else f x.

  (** asyncreduce_initialize, nimble.mpi.rank_clique_reducer.h 199-219. *)
  Definition async_initialize (fs : nat) (cl : clique) (k : nat) (s : rstate) : rstate :=
    if rs_active s k then RS (rs_mem s) (rs_send s) (rs_active s) PAbort
    else if (fs * length (cl_indices cl) <=? cl_buffersize cl)%nat then
      RS (rs_mem s)
         (updN (rs_send s) (comm_call (cl_comm cl)) (Some (pack fs (cl_indices cl) (rs_mem s))))
         (updN (rs_active s) k true)
         (PInit (S k))
    else RS (rs_mem s) (rs_send s) (rs_active s) PThrow.

  (** Contract of MPI_Test on the request of communicator [c]: it may only report completion
      once every member has started the operation on that communicator. *)
  Definition contributions (g : list rstate) (c : comm) : option (list (list T)) :=
    fold_right (fun m acc =>
      match acc, nth_error g m with
      | Some l, Some s => match rs_send s (comm_call c) with
                          | Some b => Some (b :: l)
                          | None => None
                          end
      | _, _ => None
      end) (Some []) (comm_members c).

  (** Contract of MPI_Iallreduce: element-wise combination of the contributions; the buffers
      must all have the same length (otherwise erroneous: None). *)
  Definition combine_buffers (len : nat) (bufs : list (list T)) : option (list T) :=
    if forallb (fun b => (length b =? len)%nat) bufs then
      Some (map (fun k => allreduce (flat_map (fun b => match nth_error b k with
                                                        | Some v => [v] | None => [] end) bufs))
                (seq 0 len))
    else None.

  (** asyncreduce_finalize, nimble.mpi.rank_clique_reducer.h 246-263, on clique position k.
      [ans] is the runtime's answer to MPI_Test, honoured only when the operation can be
      complete.  Returns the new state and whether it finished. *)
  Definition async_finalize (fs : nat) (g : list rstate) (cl : clique) (k : nat) (ans : bool)
             (s : rstate) : rstate * bool :=
    if rs_active s k then
      match ans, contributions g (cl_comm cl) with
      | true, Some bufs =>
          match combine_buffers (length (cl_indices cl) * fs) bufs with
          | Some recv =>
              match unpack fs (cl_indices cl) recv (rs_mem s) with
              | Ok m' => (RS m' (rs_send s) (updN (rs_active s) k false) (rs_pc s), true)
              | _ => (RS (rs_mem s) (rs_send s) (rs_active s) PUB, false)
              end
          | None => (RS (rs_mem s) (rs_send s) (rs_active s) PUB, false)
          end
      | _, _ => (s, false)
      end
    else (RS (rs_mem s) (rs_send s) (rs_active s) PAbort, false).

  Definition set_pc (s : rstate) (p : pc) : rstate :=
    RS (rs_mem s) (rs_send s) (rs_active s) p.

  (** unfinished[i] = unfinished.back(); unfinished.pop_back()  (reduction.h 143-146). *)
  Definition swap_remove (l : list nat) (i : nat) : list nat :=
    removelast (list_set l i (last l 0%nat)).

  (** One step of rank r's Reduce loop (nimble.mpi.reduction.h 127-149). *)
  Definition rank_step (fs : nat) (g : list rstate) (cls : list clique) (ans : bool) (s : rstate)
    : rstate :=
    match rs_pc s with
    | PInit k =>
        match nth_error cls k with
        | Some cl => async_initialize fs cl k s
        | None => set_pc s (PPoll (seq 0 (length cls)) 0)     (* std::iota, lines 133-134 *)
        end
    | PPoll unf i =>
        match unf with
        | [] => set_pc s PDone                                  (* while (!unfinished.empty()) *)
        | _ =>
          if (i <? length unf)%nat then
            match nth_error cls (nth i unf 0%nat) with
            | Some cl =>
                let '(s', fin) := async_finalize fs g cl (nth i unf 0%nat) ans s in
                match rs_pc s' with
                | PPoll _ _ => if fin then set_pc s' (PPoll (swap_remove unf i) i)
                               else set_pc s' (PPoll unf (S i))
                | _ => s'
                end
            | None => set_pc s PUB
            end
          else set_pc s (PPoll unf 0)                           (* next round of the while loop *)
        end
    | _ => s
    end.

  (** The whole machine: a schedule chooses which rank moves and what MPI_Test would answer. *)
  Definition step (fs : nat) (cls : list (list clique)) (g : list rstate) (mv : nat * bool)
    : list rstate :=
    let '(r, ans) := mv in
    match nth_error g r with
    | Some s => list_set g r (rank_step fs g (nth r cls []) ans s)
    | None => g
    end.

  Definition run (fs : nat) (cls : list (list clique)) (g : list rstate) (sched : list (nat * bool))
    : list rstate := fold_left (step fs cls) sched g.

  (** Initial state of PerformReduction on every rank (no request active). *)
  Definition start (data : list memory) : list rstate :=
    map (fun m => RS m (fun _ => None) (fun _ => false) (PInit 0)) data.

  (** PerformReduction, nimble.mpi.reduction.h 163-190: Reduce<fs> for field sizes 1, 2, 3,
      std::invalid_argument otherwise (before anything is sent). *)
  Definition perform_reduction (fs : nat) (cls : list (list clique)) (data : list memory)
             (sched : list (nat * bool)) : outcome (list rstate) :=
    match fs with
    | 1%nat | 2%nat | 3%nat => Ok (run fs cls (start data) sched)
    | _ => Throw
    end.

  (** The polling loop of Reduce seen from one rank (nimble.mpi.reduction.h 133-147), with the
      answers of asyncreduce_finalize given one by one; [finished] collects the cliques in the
      order they are unpacked.  None: the answers ran out while cliques were outstanding. *)
  Fixpoint poll_loop (answers : list bool) (unfinished : list nat) (i : nat) (finished : list nat)
    : option (list nat) :=
    match unfinished with
    | [] => Some finished
    | _ =>
      match answers with
      | [] => None
      | a :: answers =>
          let i := if (i <? length unfinished)%nat then i else 0%nat in
          if a then poll_loop answers (swap_remove unfinished i) i (finished ++ [nth i unfinished 0%nat])
          else poll_loop answers unfinished (S i) finished
      end
    end.

End Run.
Arguments rstate : clear implicits.
