(** Output manager: the fields of a session are those of the start. *)
From Coq Require Import Reals Lra.
From Verif Require Import Base Strings ListLemmas DataModel DataProofs Loops TensorModel TensorSpec ElementModel ElementSpec BlockModel InputModel InputProofs3 ElemDataModel ElemDataProofs4 KokkosModel KokkosSpec3 KokkosProofs KokkosProofs7 KokkosProofs8 KokkosProofs9 KokkosProofs19
  KokkosOutModel KokkosOutSpec KokkosOutProofs1 KokkosOutProofs2 KokkosOutProofs3 KokkosOutProofs4 KokkosOutProofs5 KokkosOutProofs6 KokkosOutProofs7 KokkosOutProofs8.
Set Implicit Arguments.
Local Open Scope nat_scope.
Local Open Scope list_scope.
Local Notation length := List.length.

Lemma object_inv l d0 : device_object l d0 -> exists h0, tinv (kd_same d0) (count d0) (kd_tables d0, h0) /\ tinv (kd_same d0) (count d0) (state_of d0) /\
  NoDup (block_ids (fst (state_of d0))) /\ (forall b, In b (block_ids (fst (state_of d0))) -> count d0 b <> None).
Proof.
  intros [O1 O2 O3 O4 (h0 & rs & O5 & O6 & O7)].
  assert (T0 : tinv (kd_same d0) (count d0) (kd_tables d0, h0)).
  { eapply all_tinv; [exact O1| |exact O5]. intros a b n Ha Hh Hn. unfold count in Hn. destruct (assoc Nat.eqb b (kd_blocks d0)) as [x|] eqn:Ea; [|discriminate].
    assert (Hx : In (b, x) (kd_blocks d0)).
    { destruct (nassoc_some (kd_blocks d0) b) as (x' & X1 & X2); [|congruence]. clear - Ea. induction (kd_blocks d0) as [|[c y] l IH]; [discriminate|]. simpl in *. destruct (Nat.eqb_spec b c) as [->|]; auto. }
    rewrite (O2 a b x Ha Hx Hh). congruence. }
  exists h0. split; [exact T0|]. split; [exact (@tinv_ext _ _ _ _ _ T0 O6)|].
  unfold state_of. cbn [fst]. unfold block_ids. rewrite O3. split; [exact O4|]. intros b Hi. destruct (nassoc_some _ _ Hi) as (x & X1 & _). unfold count. rewrite X1. discriminate.
Qed.
Lemma start_grow l d0 d m out : device_object l d0 -> initialize_exodus_output out d0 = Ok (d, m) ->
  grow (kd_same d0) (count d0) (state_of d0) (state_of d) /\ kd_same d = kd_same d0 /\ kd_blocks d = kd_blocks d0 /\ kd_gref d = kd_gref d0 /\ kd_gdisp d = kd_gdisp d0.
Proof.
  intros O E. destruct (object_inv O) as (h0 & _ & T1 & H1 & H2). unfold initialize_exodus_output in E. apply obind_ok in E. destruct E as ([s' m'] & E1 & E). apply obind_ok in E. destruct E as (d1 & E2 & E). cbn [fst snd] in *.
  assert (d1 = d) as -> by congruence. assert (m' = m) as -> by congruence. clear E.
  destruct (@specify_ready (kd_same d0) (count d0) (state_of d0) out s' m T1 H1 H2 E1) as (G & _).
  unfold keep_views in E2. cbn [kd_tables with_tables kd_ids] in E2. apply obind_ok in E2. destruct E2 as (uh & U1 & E2). apply obind_ok in E2. destruct E2 as (ud & U2 & E2).
  apply obind_ok in E2. destruct E2 as (vh & U3 & E2). apply obind_ok in E2. destruct E2 as (vd & U4 & E2).
  match type of E2 with Ok ?z = _ => assert (Ed : d = z) by congruence end. clear E2. subst d. destruct s' as [tb' h']. split; [exact G|]. auto.
Qed.
Lemma copy_views_frame o d d1 : copy_views o d = Ok d1 -> d1 = with_heap d (kd_heap d1).
Proof.
  unfold copy_views. destruct o as [[a b]|]; intros E.
  - apply obind_ok in E. destruct E as (h & _ & E). assert (d1 = with_heap d h) as -> by congruence. reflexivity.
  - assert (d1 = d) as -> by congruence. destruct d; reflexivity.
Qed.
Lemma write_frame sched d m d' m' o : write_exodus_output sched d m = Ok (d', m', o) -> d' = with_heap d (kd_heap d').
Proof.
  intros E. unfold write_exodus_output in E. apply obind_ok in E. destruct E as (d1 & E1 & E). apply obind_ok in E. destruct E as (d2 & E2 & E).
  apply obind_ok in E. destruct E as (d3 & E3 & E). apply obind_ok in E. destruct E as (ncols & E4 & E). apply obind_ok in E. destruct E as (ecols & E5 & E).
  assert (Ed' : d' = d3) by congruence. subst d3. clear E. apply copy_views_frame in E1. apply copy_views_frame in E2.
  unfold compute_element_data in E3. apply obind_ok in E3. destruct E3 as (? & _ & E3). apply obind_ok in E3. destruct E3 as (? & _ & E3). apply obind_ok in E3. destruct E3 as (h3 & _ & E3).
  assert (d' = with_heap d2 h3) as -> by congruence. rewrite E2, E1. reflexivity.
Qed.
Lemma session_tables l out d0 d m : device_object l d0 -> session out d0 d m -> exists d1 m1, initialize_exodus_output out d0 = Ok (d1, m1) /\
  kd_tables d = kd_tables d1 /\ kd_blocks d = kd_blocks d1 /\ kd_gref d = kd_gref d1 /\ kd_gdisp d = kd_gdisp d1.
Proof.
  intros O. induction 1 as [d m E|d m h _ IH Hh|d m sched d' m' o _ IH Hs E].
  - exists d, m. auto.
  - exact IH.
  - apply write_frame in E. rewrite E. exact IH.
Qed.
Lemma session_fields l out d0 d m : device_object l d0 -> session out d0 d m ->
  (forall k f, node_field (kd_tables d) k f = node_field (kd_tables d0) k f) /\ (forall k b f, point_field (kd_tables d) k b f = point_field (kd_tables d0) k b f) /\
  kd_blocks d = kd_blocks d0 /\ kd_gref d = kd_gref d0 /\ kd_gdisp d = kd_gdisp d0.
Proof.
  intros O Se. destruct (session_tables O Se) as (d1 & m1 & E & Et & Eb & Er & Eu). destruct (@start_grow _ _ _ _ _ O E) as (G & _ & Gb & Gr & Gu). destruct (object_inv O) as (h0 & _ & T & _).
  rewrite Et, Eb, Er, Eu. split; [|split; [|auto]].
  - intros k f. unfold node_field, get_field_id. unfold state_of in G. pose proof (gr_labels G) as GL. pose proof (gr_new G) as GW. pose proof (gr_node G) as GN. cbn [fst] in GL, GW, GN.
    destruct (assoc chars_eqb f (tb_labels (kd_tables d0))) as [i|] eqn:Ei.
    + rewrite (GL _ _ Ei). now rewrite (host_node_eq _ _ _ _ GN).
    + destruct (assoc chars_eqb f (tb_labels (kd_tables d1))) as [i|] eqn:Ei'; auto. rewrite (host_node_eq _ _ _ _ GN).
      destruct (GW _ _ Ei') as [H|H]; [congruence|].
      destruct (host_node (kd_tables d0) k (Some i)) as [v| | |] eqn:Ev; auto. destruct (@host_node_look _ _ (state_of d0) T _ _ _ Ev) as [vd L]. apply (ti_nown T) in L. unfold state_of in L. cbn [fst] in L. lia.
  - intros k b f. rewrite !pf_point. change (kd_tables d1) with (fst (state_of d1)). rewrite (pf_grow _ _ _ T G). unfold state_of at 1. cbn [fst].
    destruct (pf (kd_tables d0) k b f) as [i|]; auto. now rewrite (dev_ipt_eq _ _ _ _ _ _ (gr_iidx G) (gr_ipt G)).
Qed.
