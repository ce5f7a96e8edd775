(** Model of the contact evaluation with the bvh library, contact/parallel/bvh_contact_manager.{h,cc}.
    The entities of all ranks are one list of (owning rank, entity), as in ContactParModel; rank r has
    those it owns, in this order (contact_nodes_d_, contact_faces_d_).  The library is described: the
    broadphase reports some list of (node, face) pairs (m_faces->broadphase(m_nodes) and the local
    query of the narrowphase, by tree or by ArborX), each on some rank with copies of both entities,
    and hands each result to the owner of its entity, in any order.  set_entity_data and
    ComputeBoundingVolumes (k-dops) only feed the library and are not modelled, nor are the timers and
    the VTK files (the functions that write them are never called). *)
From Verif Require Import Base ListLemmas Loops ContactModel ContactParModel.
From Coq Require Import Reals.
Set Implicit Arguments.
Local Open Scope R_scope.

(** what rank r owns *)
Definition mine (r : nat) (l : list (nat * entity)) : list entity := map snd (filter (fun e => Nat.eqb (fst e) r) l).

(** NarrowphaseResult, bvh_contact_manager.h 61-68 (the gap is not used after the force is computed) *)
Record narrowphase_result := NR { local_index : Z; nr_force : V3; nr_bary : V3; nr_node : bool }.

(** NarrowphaseFunc::operator(), bvh_contact_manager.cc 125-165 and with ArborX 167-206 and 78-116, for one
    reported pair: the results with the ranks they go to.  Without ArborX gap, norm and bary are not
    initialised; they are used only if they were set (modelled by 0). *)
Definition narrowphase (penalty : R) (nodes faces : list (nat * entity)) (pair : nat * nat) : outcome (list (nat * narrowphase_result)) :=
  do node <- vget nodes (fst pair);
  do face <- vget faces (snd pair);
  let r := projection (snd node) (snd face) 0 vzero vzero default_tol in
  if pr_in r then
    let contact_force := get_contact_force penalty (pr_gap r) (pr_normal r) in
    Ok [(fst face, NR (local_id_ (snd face)) contact_force (pr_bary r) false);
        (fst node, NR (local_id_ (snd node)) contact_force (pr_bary r) true)]
  else Ok [].
Definition all_results (penalty : R) (nodes faces : list (nat * entity)) (pairs : list (nat * nat)) : outcome (list (nat * narrowphase_result)) :=
  ofold (fun l pair => do l' <- narrowphase penalty nodes faces pair; Ok (l ++ l')) pairs [].
(** those that arrive at rank r *)
Definition delivered (r : nat) (results : list (nat * narrowphase_result)) : list narrowphase_result :=
  map snd (filter (fun e => Nat.eqb (fst e) r) results).

(** contact_nodes_d_(local_index): an index out of range is reported on std::cerr and then used *)
Definition view_get (l : list entity) (i : Z) : outcome entity := if (i <? 0)%Z then UB else vget l (Z.to_nat i).
(** "Update contact entities", bvh_contact_manager.cc 291-308, for one result *)
Definition update_entity (s : contact_state) (r : narrowphase_result) : outcome contact_state :=
  if nr_node r then
    do node <- view_get (cs_nodes s) (local_index r);
    do node <- set_nodal_contact_forces (with_status node true) (nr_force r) None;
    Ok (CS (list_set (cs_nodes s) (Z.to_nat (local_index r)) node) (cs_faces s) (scatter node (cs_force s)))
  else
    do face <- view_get (cs_faces s) (local_index r);
    do face <- set_nodal_contact_forces (with_status face true) (nr_force r) (Some (nr_bary r));
    Ok (CS (cs_nodes s) (list_set (cs_faces s) (Z.to_nat (local_index r)) face) (scatter face (cs_force s))).
(** ComputeContactForce, parallel_contact_manager.h 61-70, and ComputeParallelContactForce,
    bvh_contact_manager.cc 248-316, between ApplyDisplacements and GetForces, on rank r; [m_last_results] is
    what was delivered, in the order in which the library hands it out *)
Definition bvh_enforce (nodes faces : list (nat * entity)) (r : nat) (m_last_results : list narrowphase_result) : outcome contact_state :=
  ofold update_entity m_last_results (CS (mine r (map reset_node nodes)) (mine r (map reset_face faces)) zero_force).
