(** C73, C74: the contact command and the visualisation of contact. *)
From Coq Require Import NArith Permutation.
From Verif Require Import Base Strings ListLemmas InputModel InputSpec MeshTextModel ContactProofs6 ContactSetupModel ContactSetupSpec ContactSetupProofs ContactSetupProofs2.
Local Close Scope string_scope.
Local Open Scope list_scope.
Set Implicit Arguments.
Local Notation length := List.length.

(** C73: a command is accepted exactly when it consists of a primary key, block names, a secondary
    key, block names, the penalty key, and anything; then the names are those written between the
    keys, in order, and the penalty is the number that follows (0 if no number follows, not set if
    nothing does); any other command is rejected by an exception. *)
Theorem C73_contact_command : forall D (rdouble : chars -> option D) (zero : D) text,
  (forall P S x, parse_contact_command rdouble zero text = Ok (P, S, x) <->
     exists pk sk rest, In pk primary_keys /\ In sk secondary_keys /\
       phrase text (pk :: P ++ sk :: S ++ [lit "penalty_parameter"]) rest /\
       (forall w, In w P -> ~ In w secondary_keys) /\ ~ In (lit "penalty_parameter") S /\ value_after rdouble zero rest x) /\
  ((exists P S x, parse_contact_command rdouble zero text = Ok (P, S, x)) \/ parse_contact_command rdouble zero text = Throw).
Proof.
  intros D rdouble zero text. split; [intros; apply parse_iff|].
  unfold parse_contact_command. cbv zeta. destruct (next_word _) as [k st]. destruct (is_primary k); [|now right].
  destruct (names_until _ _ _) as [P [[] st']]; [|now right]. destruct (names_until _ _ _) as [S [[] st'']]; [|now right]. left. eauto.
Qed.
Print Assumptions C73_contact_command.
Lemma white_one c : white c -> all_of white [c]. Proof. intros; constructor; [assumption|constructor]. Qed.
(** a case, with the old spelling of a key and irregular spacing *)
Example C73_used : forall D (rdouble : chars -> option D) zero, exists P S x,
  parse_contact_command rdouble zero (lit " master_blocks  block_1 block_2 secondary_blocks block_3  penalty_parameter 100.0") = Ok (P, S, x) /\
  P = [lit "block_1"; lit "block_2"] /\ S = [lit "block_3"] /\ x = Some (or_default zero (rdouble (lit "100.0"))).
Proof. intros. do 3 eexists. split; [vm_compute; reflexivity|]. split; [reflexivity|]. split; [reflexivity|]. reflexivity. Qed.
(** refuted corner: a command that ends with the penalty key is accepted without a penalty (the
    caller's variable stays uninitialised), and so is one without block names *)
Theorem C73_penalty_missing_refuted : forall D (rdouble : chars -> option D) (zero : D),
  parse_contact_command rdouble zero (lit "primary_blocks a secondary_blocks b penalty_parameter") = Ok ([lit "a"], [lit "b"], None) /\
  parse_contact_command rdouble zero (lit "primary_blocks secondary_blocks penalty_parameter 1") = Ok ([], [], Some (or_default zero (rdouble (lit "1")))).
Proof. intros. split; vm_compute; reflexivity. Qed.
Print Assumptions C73_penalty_missing_refuted.

(** * Visualisation *)
Lemma fids_in D mx (f : vface D) z : In z (fids mx f) -> exists k, (9 <= k <= 11)%Z /\ z = (3 * vf_id f + mx + k)%Z.
Proof. intros [<-|[<-|[<-|[]]]]; eexists; (split; [|reflexivity]); lia. Qed.
Lemma flat_map_nodup {A B} (g : A -> list B) (l : list A) : NoDup l -> (forall a, In a l -> NoDup (g a)) -> (forall a b x, In a l -> In b l -> In x (g a) -> In x (g b) -> a = b) -> NoDup (flat_map g l).
Proof.
  induction l as [|a l IH]; intros Hn Hg Hd; [constructor|]. cbn [flat_map]. inversion_clear Hn as [|? ? Ha Hl]. apply NoDup_app_intro.
  - apply Hg. now left.
  - apply IH; auto. + intros; apply Hg; now right. + intros b c x Hb Hc. apply Hd; now right.
  - intros x Hx Hf. apply in_flat_map in Hf. destruct Hf as (b & Hb & Hx'). apply Ha. rewrite (Hd a b x); auto; [now left|now right].
Qed.

Definition rank_max {D} (e : list (vface D) * list (vnode D)) : Z := max_entity_id (fst e) (snd e).
(** the result of the MPI_Allreduce(MPI_MAX) *)
Definition all_max {D} (ranks : list (list (vface D) * list (vnode D))) : Z := fold_right Z.max 0%Z (map rank_max ranks).

Lemma all_max_ge D (ranks : list (list (vface D) * list (vnode D))) : (0 <= all_max ranks)%Z /\ forall e z, In e ranks -> In z (entity_ids e) -> (z <= all_max ranks)%Z.
Proof.
  unfold all_max. induction ranks as [|e ranks [H0 IH]]; cbn [map fold_right]; [split; [lia|intros e z []]|]. split; [lia|].
  intros e' z [<-|He] Hz; [|specialize (IH e' z He Hz); lia]. destruct e as [fs ns]. destruct (max_entity fs ns) as [_ M]. specialize (M z Hz). unfold rank_max. cbn [fst snd]. lia.
Qed.
Lemma flat_map_in_mono {A B} (g h : A -> list B) l : (forall a x, In a l -> In x (g a) -> In x (h a)) -> forall x, In x (flat_map g l) -> In x (flat_map h l).
Proof. intros H x Hx. apply in_flat_map in Hx as (a & Ha & Hx). apply in_flat_map. eauto. Qed.
Lemma nodup_entities_split D (ranks : list (list (vface D) * list (vnode D))) :
  Permutation (flat_map entity_ids ranks) (map (@vf_id D) (flat_map fst ranks) ++ map (@vn_id D) (flat_map snd ranks)).
Proof.
  induction ranks as [|[fs ns] ranks IH]; [constructor|]. cbn [flat_map fst snd entity_ids]. rewrite !map_app. unfold entity_ids at 1. cbn [fst snd].
  rewrite <- !app_assoc. apply Permutation_app_head. rewrite IH. rewrite !app_assoc. apply Permutation_app_tail. apply Permutation_app_comm.
Qed.
Lemma node_ids_split D mx (ranks : list (list (vface D) * list (vnode D))) :
  Permutation (flat_map (fun e => flat_map (fids mx) (fst e) ++ map (@vn_id D) (snd e)) ranks) (flat_map (fids mx) (flat_map fst ranks) ++ map (@vn_id D) (flat_map snd ranks)).
Proof.
  induction ranks as [|[fs ns] ranks IH]; [constructor|]. cbn [flat_map fst snd]. rewrite flat_map_app, map_app.
  rewrite <- !app_assoc. apply Permutation_app_head. rewrite IH. rewrite !app_assoc. apply Permutation_app_tail. apply Permutation_app_comm.
Qed.
Lemma NoDup_app_inv {A} (l m : list A) : NoDup (l ++ m) -> NoDup l /\ NoDup m /\ (forall x, In x l -> In x m -> False).
Proof.
  induction l as [|a l IH]; cbn [app]; intros H; [split; [constructor|]; split; auto; intros x []|].
  inversion_clear H as [|? ? Ha Hl]. destruct (IH Hl) as (A1 & A2 & A3). split; [constructor; auto; intros X; apply Ha, in_or_app; auto|]. split; auto.
  intros x [<-|Hx] Hm; [apply Ha, in_or_app; auto|eauto].
Qed.

(** C74, the picture: on every rank the contact entities become a mesh with one block of triangles
    and one block of single nodes: triangle k has the three corners of face k, sphere k sits at node
    k, the element ids are the entity ids, and over all ranks no two nodes and no two elements of the
    pictures have the same id.  The hypotheses on the ids are what C35 and C57 provide. *)
Theorem C74_visualization_mesh : forall D (ranks : list (list (vface D) * list (vnode D))),
  NoDup (flat_map entity_ids ranks) -> (forall z, In z (flat_map entity_ids ranks) -> (0 <= z)%Z) -> (4 * all_max ranks + 11 < 2 ^ 31)%Z ->
  exists pictures : list (mesh D),
    Forall2 (fun e m =>
      let '(faces, nodes) := e in
      initialize_visualization (all_max ranks) faces nodes = Ok m /\
      m_elem_id m = entity_ids e /\ m_block_ids m = [1; 2]%Z /\
      length (m_node_id m) = length (points faces nodes) /\
      (forall i p, nth_error (points faces nodes) i = Some p ->
         nth_error (m_x m) i = Some (fst (fst p)) /\ nth_error (m_y m) i = Some (snd (fst p)) /\ nth_error (m_z m) i = Some (snd p)) /\
      length (m_x m) = length (points faces nodes) /\ length (m_y m) = length (points faces nodes) /\ length (m_z m) = length (points faces nodes) /\
      exists triangles spheres,
        m_conn m = [(1%Z, triangles); (2%Z, spheres)] /\ m_nodes_per_elem m = [(1%Z, 3%Z); (2%Z, 1%Z)] /\
        length triangles = 3 * length faces /\ length spheres = length nodes /\
        (forall k f, nth_error faces k = Some f -> forall j, j < 3 -> exists i,
           nth_error triangles (3 * k + j) = Some (Z.of_nat i) /\ nth_error (points faces nodes) i = nth_error [vf_1 f; vf_2 f; vf_3 f] j) /\
        (forall k n, nth_error nodes k = Some n -> exists i,
           nth_error spheres k = Some (Z.of_nat i) /\ nth_error (points faces nodes) i = Some (vn_1 n))) ranks pictures /\
    NoDup (flat_map (@m_node_id D) pictures) /\ NoDup (flat_map (@m_elem_id D) pictures).
Proof.
  intros D ranks Hn Hp Hm. destruct (all_max_ge ranks) as [H0 Hge]. set (mx := all_max ranks) in *.
  exists (map (fun e => vis_mesh mx (fst e) (snd e)) ranks). split; [|split].
  - assert (F : Forall (fun e => forall f, In f (fst e) -> (0 <= vf_id f <= mx)%Z) ranks).
    { apply Forall_forall. intros e He f Hf. assert (Hz : In (vf_id f) (entity_ids e)) by (apply in_or_app; left; now apply in_map).
      split; [apply Hp, in_flat_map; eauto|eauto]. }
    clear Hn Hp Hge. revert F. clearbody mx. induction ranks as [|[faces nodes] ranks IH]; intros F; [constructor|]. inversion_clear F as [|? ? F1 F2]. cbn [map]. constructor; [|auto]. clear IH F2.
    cbn [fst snd] in *. split; [apply vis_ok; auto|]. split; [reflexivity|]. split; [reflexivity|].
    assert (L : length (flat_map (fids mx) faces) = 3 * length faces) by (clear; induction faces; simpl in *; lia).
    split; [unfold vis_mesh; cbn [m_node_id initialize]; rewrite app_length, map_length, L, points_length; reflexivity|].
    split. { intros i p Hi. unfold vis_mesh. cbn [m_x m_y m_z initialize]. rewrite !nth_error_map, Hi. cbn [option_map]. unfold px, py, pz. auto. }
    split; [unfold vis_mesh; cbn [m_x m_y m_z initialize]; apply map_length|]. split; [unfold vis_mesh; cbn [m_x m_y m_z initialize]; apply map_length|]. split; [unfold vis_mesh; cbn [m_x m_y m_z initialize]; apply map_length|].
    exists (map Z.of_nat (seq 0 (3 * length faces))), (map Z.of_nat (seq (3 * length faces) (length nodes))).
    split; [reflexivity|]. split; [reflexivity|]. split; [now rewrite map_length, seq_length|]. split; [now rewrite map_length, seq_length|].
    assert (Ls : length (flat_map (fun f : vface D => [vf_1 f; vf_2 f; vf_3 f]) faces) = 3 * length faces) by (clear; induction faces; simpl in *; lia).
    assert (N : forall s n i, i < n -> nth_error (map Z.of_nat (seq s n)) i = Some (Z.of_nat (s + i))).
    { intros s n i Hi. rewrite nth_error_map. rewrite (nth_error_nth' _ 0) by (rewrite seq_length; lia). rewrite seq_nth by lia. reflexivity. }
    split.
    + intros k f Hk j Hj. assert (Hlt : k < length faces) by (apply nth_error_Some; congruence). exists (3 * k + j). split; [apply (N 0); lia|].
      unfold points. rewrite nth_error_app1 by lia. clear - Hk Hj. revert k Hk. induction faces as [|g faces IH]; intros k Hk; [destruct k; discriminate|].
      destruct k as [|k]; [injection Hk as ->; destruct j as [|[|[|j]]]; [reflexivity..|lia]|]. replace (3 * S k + j) with (S (S (S (3 * k + j)))) by lia. cbn [flat_map app nth_error]. apply (IH k Hk).
    + intros k n Hk. assert (Hlt : k < length nodes) by (apply nth_error_Some; congruence). exists (3 * length faces + k). split; [apply N; lia|].
      unfold points. rewrite nth_error_app2 by lia. rewrite Ls. replace (3 * length faces + k - 3 * length faces) with k by lia. rewrite nth_error_map, Hk. reflexivity.
  - assert (E : flat_map (@m_node_id D) (map (fun e => vis_mesh mx (fst e) (snd e)) ranks) = flat_map (fun e => flat_map (fids mx) (fst e) ++ map (@vn_id D) (snd e)) ranks) by (rewrite !flat_map_concat_map, map_map; reflexivity).
    rewrite E. eapply Permutation_NoDup; [symmetry; apply node_ids_split|].
    pose proof (Permutation_NoDup (nodup_entities_split ranks) Hn) as Hn'. apply NoDup_app_inv in Hn' as (Nf & Nn & Nd).
    assert (Hid : forall f, In f (flat_map fst ranks) -> (0 <= vf_id f)%Z).
    { intros f Hf. apply Hp. eapply Permutation_in; [symmetry; apply nodup_entities_split|]. apply in_or_app. left. now apply in_map. }
    apply NoDup_app_intro; auto.
    + apply flat_map_nodup.
      * eapply NoDup_map_inv. exact Nf.
      * intros f _. unfold fids. repeat constructor; simpl; lia.
      * intros f g z Hf Hg Hz Hz'. apply fids_in in Hz as (k & Hk & ->). apply fids_in in Hz' as (k' & Hk' & E').
        assert (vf_id f = vf_id g) by lia. clear - Nf Hf Hg H. revert Nf Hf Hg. generalize (flat_map fst ranks) as l.
        induction l as [|a l IH]; intros Nf Hf Hg; [destruct Hf|]. cbn [map] in Nf. inversion_clear Nf as [|? ? Na Nl].
        destruct Hf as [<-|Hf], Hg as [<-|Hg]; auto; exfalso; apply Na; [rewrite H|rewrite <- H]; now apply in_map.
    + intros z Hz Hz'. apply in_flat_map in Hz as (f & Hf & Hz). apply fids_in in Hz as (k & Hk & ->). apply in_map_iff in Hz' as (n & En & Hn').
      specialize (Hid f Hf). apply in_flat_map in Hn' as (e & He & Hn'). assert (In (vn_id n) (entity_ids e)) by (apply in_or_app; right; now apply in_map).
      specialize (Hge e (vn_id n) He H). lia.
  - rewrite flat_map_concat_map, map_map, <- flat_map_concat_map. exact Hn.
Qed.
Print Assumptions C74_visualization_mesh.

(** C74, the records: at any later time, with the same entities moved, each node of the picture is
    given the displacement from its first position and 1 or 0 according to the contact status of its
    entity; the global value is the number of faces in contact. *)
Theorem C74_visualization_records : forall D (sub : D -> D -> D) (zero one : D) (of_count : nat -> D) mx faces0 nodes0 m faces nodes,
  initialize_visualization mx faces0 nodes0 = Ok m -> length faces = length faces0 -> length nodes = length nodes0 ->
  exists ux uy uz st, write_visualization sub zero one of_count m faces nodes = Ok ([of_count (length (filter (@vf_status D) faces))], [ux; uy; uz; st]) /\
    visualization_labels = ([lit "num_contacts"], [lit "displacement_x"; lit "displacement_y"; lit "displacement_z"; lit "contact_status"], [(1%Z, []); (2%Z, [])]) /\
    length ux = length (m_node_id m) /\ length uy = length (m_node_id m) /\ length uz = length (m_node_id m) /\ length st = length (m_node_id m) /\
    forall i p q b, nth_error (points faces nodes) i = Some p -> nth_error (points faces0 nodes0) i = Some q -> nth_error (statuses faces nodes) i = Some b ->
      nth_error ux i = Some (sub (fst (fst p)) (fst (fst q))) /\ nth_error uy i = Some (sub (snd (fst p)) (snd (fst q))) /\
      nth_error uz i = Some (sub (snd p) (snd q)) /\ nth_error st i = Some (if b then one else zero).
Proof.
  intros D sub zero one of_count mx faces0 nodes0 m faces nodes Hm Hf Hn.
  unfold initialize_visualization in Hm. destruct (omapM _ faces0) as [ids| | |] eqn:Ei; try discriminate. cbn [obind] in Hm. injection Hm as <-.
  assert (Li : length (List.concat ids) = 3 * length faces0).
  { clear - Ei. revert ids Ei. induction faces0 as [|f fs IH]; intros ids E; cbn [omapM] in E; [injection E as <-; reflexivity|].
    destruct (face_node_id _ _ 9) as [a| | |]; try discriminate. destruct (face_node_id _ _ 10) as [b| | |]; try discriminate. destruct (face_node_id _ _ 11) as [c| | |]; try discriminate. cbn [obind] in E.
    destruct (omapM _ fs) as [r| | |]; try discriminate. cbn [obind] in E. injection E as <-. cbn [List.concat app List.length]. rewrite (IH r eq_refl). lia. }
  fold (points faces0 nodes0). set (m := initialize _ _ _ _ _ _ _ _ _ _ _).
  assert (Lp : length (points faces nodes) = length (points faces0 nodes0)) by (rewrite !points_length; lia).
  assert (Ls : length (statuses faces nodes) = length (points faces0 nodes0)) by (rewrite statuses_length, points_length; lia).
  assert (Lm : length (m_node_id m) = length (points faces0 nodes0)) by (unfold m; cbn [m_node_id initialize]; rewrite app_length, map_length, Li, points_length; reflexivity).
  do 4 eexists. split; [apply (@write_ok D sub zero one of_count m (points faces0 nodes0)); auto; reflexivity|]. split; [reflexivity|].
  rewrite !map_length, !combine_length, Lp, Ls, Lm, Nat.min_id. split; [reflexivity|]. split; [reflexivity|]. split; [reflexivity|]. split; [reflexivity|].
  intros i p q b Hp Hq Hb.
  assert (Hc : nth_error (combine (points faces nodes) (points faces0 nodes0)) i = Some (p, q)).
  { clear - Hp Hq. revert i Hp Hq. generalize (points faces nodes) as l, (points faces0 nodes0) as l'. induction l as [|x l IH]; intros [|y l'] [|i] Hp Hq; try discriminate; cbn [combine nth_error] in *; [congruence|auto]. }
  rewrite !nth_error_map, Hc, Hb. cbn [option_map fst snd]. unfold px, py, pz, num. auto.
Qed.
Print Assumptions C74_visualization_records.

(** two ranks: one with a face and a node, the other with a face *)
Example C74_used : exists ranks : list (list (vface Z) * list (vnode Z)),
  NoDup (flat_map entity_ids ranks) /\ (forall z, In z (flat_map entity_ids ranks) -> (0 <= z)%Z) /\ (4 * all_max ranks + 11 < 2 ^ 31)%Z /\
  length ranks = 2 /\ flat_map entity_ids ranks = [64; 3; 65]%Z.
Proof.
  exists [([VFace 64 (0, 0, 0) (1, 0, 0) (0, 1, 0) false], [VNode 3 (2, 2, 2) true]); ([VFace 65 (0, 0, 1) (1, 0, 1) (0, 1, 1) false], [])]%Z.
  cbn. split; [repeat constructor; simpl; lia|]. split; [intros z [<-|[<-|[<-|[]]]]; lia|]. split; [reflexivity|]. split; reflexivity.
Qed.
Example C74_records_used :
  match initialize_visualization 64 [VFace 64 (0, 0, 0) (1, 0, 0) (0, 1, 0) false]%Z [VNode 3 (2, 2, 2) true]%Z with
  | Ok m => write_visualization Z.sub 0%Z 1%Z Z.of_nat m [VFace 64 (0, 0, 5) (1, 0, 5) (0, 1, 6) true]%Z [VNode 3 (1, 2, 4) false]%Z
            = Ok ([1%Z], [[0; 0; 0; -1]; [0; 0; 0; 0]; [5; 5; 6; 2]; [1; 1; 1; 0]]%Z) /\ m_node_id m = [265; 266; 267; 3]%Z
  | _ => False end.
Proof. vm_compute. split; reflexivity. Qed.

(** refuted corner 1: for entity ids from 536870910 on (element ids above about 16 million, since an
    entity id is at least 32 times the element id) the node ids overflow int *)
Theorem C74_large_ids_refuted : forall D (p1 p2 p3 : D * D * D) id, (536870910 <= id < 2 ^ 31)%Z ->
  initialize_visualization id [VFace id p1 p2 p3 false] [] = UB /\ max_entity_id [VFace id p1 p2 p3 false] [] = id.
Proof.
  intros D p1 p2 p3 id H. assert (P : (2 ^ 31 = 2147483648)%Z) by reflexivity. split.
  - unfold initialize_visualization. cbn [omapM vf_id]. unfold face_node_id, int_ok, in_int.
    destruct ((- 2 ^ 31 <=? 3 * id) && (3 * id <? 2 ^ 31))%Z eqn:E1; [|reflexivity]. cbn [obind].
    destruct ((- 2 ^ 31 <=? 3 * id + id) && (3 * id + id <? 2 ^ 31))%Z eqn:E2; [|reflexivity]. cbn [obind].
    destruct ((- 2 ^ 31 <=? 3 * id + id + 9) && (3 * id + id + 9 <? 2 ^ 31))%Z eqn:E3; [|reflexivity].
    exfalso. apply andb_prop in E3 as [_ E3]. apply Z.ltb_lt in E3. lia.
  - unfold max_entity_id. cbn [map fold_left vf_id]. rewrite Z.gtb_ltb. rewrite (proj2 (Z.ltb_lt 0 id)) by lia. reflexivity.
Qed.
Print Assumptions C74_large_ids_refuted.

(** refuted corner 2: in a build without exodus the picture can not be written as soon as there is a
    contact face: the element ids of the blocks are left empty *)
Lemma omapM_ub {A B} (f : A -> outcome B) l : (forall x, f x = UB \/ exists y, f x = Ok y) -> omapM f l = UB \/ exists ys, omapM f l = Ok ys.
Proof.
  intros H. induction l as [|a l [IH|[ys IH]]]; cbn [omapM]; [right; eauto| |]; (destruct (H a) as [->|[y ->]]; [now left|]); cbn [obind]; rewrite IH; [now left|right; cbn [obind]; eauto].
Qed.
Theorem C74_text_picture_refuted : forall D (show : D -> chars) mx faces nodes m global node elem derived,
  initialize_visualization mx faces nodes = Ok m -> faces <> [] ->
  write_database show m global node elem derived = UB.
Proof.
  intros D show mx faces nodes m global node elem derived Hm Hf.
  unfold initialize_visualization in Hm. destruct (omapM _ faces) as [ids| | |]; try discriminate. cbn [obind] in Hm. injection Hm as <-.
  unfold write_database, database_lines. match goal with |- obind (obind (omapM ?f ?l) _) _ = _ => destruct (@omapM_ub _ _ f l) as [->|[ys ->]] end; [|reflexivity|].
  { intros x. unfold node_line, vget, plus1. destruct (nth_error _ _); cbn [obind]; [|now left]. destruct (in_int _); cbn [obind]; [|now left]. do 3 (destruct (nth_error _ _); cbn [obind]; [|now left]). right. eauto. }
  cbn [obind initialize m_block_ids omapM block_lines m_all_block_names m_nodes_per_elem m_block_elem_ids m_conn].
  unfold block_lines at 1. cbn [obind initialize m_block_ids m_all_block_names m_nodes_per_elem m_block_elem_ids m_conn].
  unfold map_at at 1. cbn [assoc Z.eqb Pos.eqb obind].
  assert (E : forall a b c d e f g h, num_elements_in_block (initialize (D := D) a b c d e f [1; 2]%Z g h [(1%Z, 3%Z); (2%Z, 1%Z)]
     [(1%Z, map Z.of_nat (seq 0 (3 * length faces))); (2%Z, map Z.of_nat (seq (3 * length faces) (length nodes)))]) 1 = Ok (Z.of_nat (length faces))).
  { intros. unfold num_elements_in_block. cbn [m_conn m_nodes_per_elem initialize]. unfold map_at. cbn [assoc Z.eqb Pos.eqb obind].
    destruct faces as [|f0 faces]; [congruence|]. assert (L : length (map Z.of_nat (seq 0 (3 * length (f0 :: faces)))) = 3 * length (f0 :: faces)) by now rewrite map_length, seq_length.
    destruct (map Z.of_nat (seq 0 (3 * length (f0 :: faces)))) as [|z zs]; [simpl in L; lia|]. rewrite L. f_equal.
    rewrite Nat2Z.inj_mul. rewrite Z.mul_comm. apply Z.quot_mul. lia. }
  rewrite E. cbn [obind]. unfold map_at at 1 2 3. cbn [assoc Z.eqb Pos.eqb obind]. destruct faces as [|f0 faces]; [congruence|]. rewrite Nat2Z.id. cbn [List.length seq omapM]. reflexivity.
Qed.
Print Assumptions C74_text_picture_refuted.
Example C74_text_picture_used : exists m, initialize_visualization 64 [VFace 64 (0, 0, 0) (1, 0, 0) (0, 1, 0) false]%Z [] = Ok m.
Proof. eexists. vm_compute. reflexivity. Qed.
