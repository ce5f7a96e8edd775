(** Properties of the contact skin. *)
From Verif Require Import Base ListLemmas SkinModel SkinSpec SkinProofs RingProofs RingProofs2 Loops TensorSpec ElementSpec.
From Coq Require Import Permutation Sorted Reals Lra.
Set Implicit Arguments.
Local Open Scope Z_scope.

(** ** C33 *)
(** For any mesh of hexahedra in any number of blocks: if no face belongs to three or more sides the
    skin consists of exactly the sides whose face no other side shares, each once, with its nodes
    in the side's order and the side's entity id in the same position. *)
Theorem C33_skin_exact : forall blocks offset, Forall hexes blocks -> ids_fit offset (concat blocks) ->
  let l := sides (concat blocks) in ~ triple_side l ->
  exists skin, skin_blocks (map stored blocks) offset = Ok (map nodes_of skin, map (side_id offset) skin) /\
    (forall s, In s skin <-> lone_side l s) /\
    ForallOrdPairs (fun s t => ~ same_face s t) skin.
Proof.
  intros blocks offset Hh Hf l HT. destruct (skin_main Hh Hf) as [_ M]. destruct (M HT) as (skin & E & Hn & Hi & _).
  exists skin. split; [exact E|]. split; [exact Hi|].
  clear - Hn. induction skin as [|s skin IH]; [constructor|]. cbn [map] in Hn. inversion Hn as [|? ? N1 N2]; subst. constructor; [|now apply IH].
  apply Forall_forall. intros t Ht Hs. apply N1. apply in_map_iff. exists t. split; [|exact Ht]. symmetry. now apply skey_same.
Qed.
Print Assumptions C33_skin_exact.
(** A face that belongs to three sides stops the program. *)
Theorem C33_triple_face_aborts : forall blocks offset, Forall hexes blocks -> ids_fit offset (concat blocks) ->
  triple_side (sides (concat blocks)) -> skin_blocks (map stored blocks) offset = Abort.
Proof. intros blocks offset Hh Hf. apply (skin_main Hh Hf). Qed.
Print Assumptions C33_triple_face_aborts.

Lemma is_edge_sym a b p q : is_edge a b p q = is_edge a b q p.
Proof. unfold is_edge. rewrite orb_comm. reflexivity. Qed.
Lemma hex_edges a b e : Z.even (fold_right Z.add 0 (map (fun s => edge_count a b (nodes_of s)) (map (fun o => (e, o)) (seq 0 6)))) = true.
Proof.
  cbn [seq map fold_right]. unfold nodes_of, side. cbn [fst snd]. unfold edge_count.
  set (n0 := nth 0 (snd e) 0). set (n1 := nth 1 (snd e) 0). set (n2 := nth 2 (snd e) 0). set (n3 := nth 3 (snd e) 0).
  set (n4 := nth 4 (snd e) 0). set (n5 := nth 5 (snd e) 0). set (n6 := nth 6 (snd e) 0). set (n7 := nth 7 (snd e) 0).
  rewrite (is_edge_sym a b n1 n0), (is_edge_sym a b n2 n1), (is_edge_sym a b n3 n2), (is_edge_sym a b n3 n0), (is_edge_sym a b n4 n0), (is_edge_sym a b n5 n1), (is_edge_sym a b n6 n2), (is_edge_sym a b n7 n3),
    (is_edge_sym a b n5 n4), (is_edge_sym a b n6 n5), (is_edge_sym a b n7 n6), (is_edge_sym a b n7 n4).
  match goal with |- Z.even ?x = true => replace x with (2 * (is_edge a b n0 n1 + is_edge a b n1 n2 + is_edge a b n2 n3 + is_edge a b n0 n3 + is_edge a b n4 n5 + is_edge a b n5 n6 + is_edge a b n6 n7 + is_edge a b n4 n7 + is_edge a b n0 n4 + is_edge a b n1 n5 + is_edge a b n2 n6 + is_edge a b n3 n7)) by ring end.
  rewrite Z.even_mul. reflexivity.
Qed.
(** The skin of a conforming mesh is a closed surface: every edge lies on an even number of its faces. *)
Theorem C33_skin_closed : forall blocks offset faces ids, Forall hexes blocks -> ids_fit offset (concat blocks) ->
  conforming (sides (concat blocks)) -> skin_blocks (map stored blocks) offset = Ok (faces, ids) ->
  forall a b, Z.even (fold_right Z.add 0 (map (edge_count a b) faces)) = true.
Proof.
  intros blocks offset faces ids Hh Hf Hc E a b. destruct (skin_main Hh Hf) as [M0 M].
  set (l := sides (concat blocks)) in *.
  assert (HT : ~ triple_side l) by (intros HT; apply M0 in HT; rewrite HT in E; discriminate).
  destruct (M HT) as (skin & E' & _ & _ & P). rewrite E in E'. injection E' as -> ->.
  rewrite map_map. rewrite (P (fun s => edge_count a b (nodes_of s))) by (intros s t Hs Ht Hst; now apply Hc).
  unfold l. clear. induction (concat blocks) as [|e es IH]; [reflexivity|]. unfold sides. cbn [flat_map].
  rewrite zsum_app, Z.even_add. fold (sides es). rewrite IH, hex_edges. reflexivity.
Qed.
Print Assumptions C33_skin_closed.

(** The node order of a side turns around the outward normal: for a parallelepiped with node n at
    b + A corner(n), det A > 0, the normal of side o points away from the centre. *)
Definition reference_hex : hex := (0, [0; 1; 2; 3; 4; 5; 6; 7]).
Definition cross (u v : nat -> R) : nat -> R := fun i => match i with
  | 0%nat => u 1%nat * v 2%nat - u 2%nat * v 1%nat | 1%nat => u 2%nat * v 0%nat - u 0%nat * v 2%nat | _ => u 0%nat * v 1%nat - u 1%nat * v 0%nat end%R.
Theorem C33_outward_normals : forall A b o, (0 < mdet A)%R -> (o < 6)%nat ->
  let p k := fun i => (b i + mvec A (corner (Z.to_nat (nth k (side o reference_hex) 0%Z))) i)%R in
  (0 < dot3 (cross (fun i => p 1%nat i - p 0%nat i) (fun i => p 2%nat i - p 0%nat i)) (fun i => (p 0%nat i + p 1%nat i + p 2%nat i + p 3%nat i) / 4 - b i))%R.
Proof.
  intros A b o HA Ho p.
  assert (E : dot3 (cross (fun i => p 1%nat i - p 0%nat i) (fun i => p 2%nat i - p 0%nat i))%R (fun i => (p 0%nat i + p 1%nat i + p 2%nat i + p 3%nat i) / 4 - b i)%R = (4 * mdet A)%R).
  { unfold p. destruct o as [|[|[|[|[|[|o]]]]]]; try lia;
    cbv [dot3 cross mvec Rsum mdet side reference_hex nth fst snd Z.to_nat Pos.to_nat Pos.iter_op Nat.add corner existsb Nat.eqb orb]; field. }
  rewrite E. lra.
Qed.
Print Assumptions C33_outward_normals.
(** Side o consists of the four corners with one coordinate fixed: y=-1, x=1, y=1, x=-1, z=-1, z=1. *)
Theorem C33_sides_of_the_cube : forall o k c, (o < 6)%nat -> (c < 8)%nat ->
  k = (match o with 0 | 2 => 1 | 1 | 3 => 0 | _ => 2 end)%nat ->
  (In (Z.of_nat c) (side o reference_hex) <-> corner c k = match o with 0%nat | 3%nat | 4%nat => -1 | _ => 1 end%R).
Proof.
  intros o k c Ho Hc ->.
  destruct o as [|[|[|[|[|[|o]]]]]]; try lia; destruct c as [|[|[|[|[|[|[|[|c]]]]]]]]; try lia;
  cbv [corner existsb Nat.eqb orb side reference_hex nth fst snd In Z.of_nat Pos.of_succ_nat Pos.succ]; split; intros H;
  try reflexivity; try (exfalso; lra); intuition (discriminate || reflexivity || auto).
Qed.
Print Assumptions C33_sides_of_the_cube.

(** Two hexahedra sharing a face: ten sides in the skin. *)
Example C33_two : let es := [(0, [0; 1; 2; 3; 4; 5; 6; 7]); (1, [4; 5; 6; 7; 8; 9; 10; 11])] in
  exists faces ids, skin_blocks [stored es] 100 = Ok (faces, ids) /\ length faces = 10%nat /\ In [0; 1; 5; 4] faces /\ ~ In [4; 5; 6; 7] faces /\
  ids_fit 100 es /\ hexes es.
Proof.
  eexists _, _. split; [reflexivity|]. split; [reflexivity|]. split; [simpl; tauto|]. split; [|split; [repeat constructor; simpl; lia|repeat constructor]].
  simpl. intuition discriminate.
Qed.

(** ** C35 *)
(** Element, face and triangle can be recovered from the id of a facet. *)
Theorem C35_facet_ids : forall offset (s : hex * nat) t, (snd s < 6)%nat -> 0 <= t < 4 -> 0 <= fst (fst s) + 1 + offset ->
  let id := triangle_entity_id (side_id offset s) t in
  id / 32 - 1 - offset = fst (fst s) /\ (id / 4) mod 8 = Z.of_nat (snd s) /\ id mod 4 = t.
Proof.
  intros offset s t Ho Ht He id. unfold id, triangle_entity_id, side_id.
  set (e := fst (fst s) + 1 + offset) in *. set (o := Z.of_nat (snd s)).
  assert (E : Z.lor (32 * e + 4 * o) t = (8 * e + o) * 4 + t).
  { replace (32 * e + 4 * o) with ((8 * e + o) * 2 ^ 2) by (change (2 ^ 2) with 4; ring). rewrite lor_low; [reflexivity|lia|change (2 ^ 2) with 4; lia]. }
  change (32 * (fst (fst s) + 1 + offset) + 4 * Z.of_nat (snd s)) with (32 * e + 4 * o).
  rewrite E. assert (Hob : 0 <= o < 8) by (unfold o; lia).
  assert (D4 : ((8 * e + o) * 4 + t) / 4 = 8 * e + o) by (rewrite Z.div_add_l by lia; rewrite Z.div_small by lia; lia).
  split; [|split].
  - replace 32 with (4 * 8) by reflexivity. rewrite <- Z.div_div by lia. rewrite D4. rewrite (Z.mul_comm 8 e), Z.div_add_l, Z.div_small by lia. unfold e. lia.
  - rewrite D4. rewrite Z.add_comm, Z.mul_comm, Z.mod_add by lia. apply Z.mod_small. lia.
  - rewrite Z.add_comm, Z.mod_add by lia. apply Z.mod_small. lia.
Qed.
Print Assumptions C35_facet_ids.
(** All facets of a skin (four per face) have different ids when the elements have different ids,
    and none of them is the id (node number + 1) of a node, the offset being at least every node number. *)
Theorem C35_unique : forall blocks offset faces ids, Forall hexes blocks -> ids_fit offset (concat blocks) ->
  NoDup (map fst (concat blocks)) -> Forall (fun e => 0 <= fst e) (concat blocks) -> 0 <= offset ->
  skin_blocks (map stored blocks) offset = Ok (faces, ids) ->
  NoDup (flat_map (fun id => map (triangle_entity_id id) [0; 1; 2; 3]) ids) /\
  forall node id, node <= offset -> In id (flat_map (fun id => map (triangle_entity_id id) [0; 1; 2; 3]) ids) -> id <> node + 1.
Proof.
  intros blocks offset faces ids Hh Hf Hn Hpos Hoff E. destruct (skin_main Hh Hf) as [M0 M]. set (l := sides (concat blocks)) in *.
  assert (HT : ~ triple_side l) by (intros HT; apply M0 in HT; rewrite HT in E; discriminate).
  destruct (M HT) as (skin & E' & Hs & Hi & _). rewrite E in E'. injection E' as -> ->.
  assert (Hin : forall s, In s skin -> In (fst s) (concat blocks) /\ (snd s < 6)%nat).
  { intros s Hsk. apply Hi in Hsk as (a & b & El & _). apply in_sides. fold l. rewrite El. apply in_app_iff. right. now left. }
  assert (Hfit : forall s, In s skin -> 0 <= fst (fst s) + 1 + offset).
  { intros s Hsk. destruct (Hin s Hsk) as [A _]. unfold ids_fit in Hf. rewrite Forall_forall in Hf. now apply (Hf (fst s)). }
  assert (Helem : forall s t, In s skin -> In t skin -> fst (fst s) = fst (fst t) -> fst s = fst t).
  { intros s t Hsk Htk Eq. destruct (Hin s Hsk) as [A _], (Hin t Htk) as [B _]. clear - Hn A B Eq.
    induction (concat blocks) as [|x es IH]; [destruct A|]. cbn [map] in Hn. inversion Hn as [|? ? N1 N2]; subst.
    destruct A as [->|A], B as [B|B]; auto; exfalso; apply N1; [rewrite Eq|subst x; rewrite <- Eq]; now apply in_map. }
  split.
  - clear E Hi. induction skin as [|s skin IH]; [constructor|]. cbn [map flat_map]. cbn [map] in Hs. inversion Hs as [|? ? S1 S2]; subst.
    assert (IH' : NoDup (flat_map (fun id => map (triangle_entity_id id) [0; 1; 2; 3]) (map (side_id offset) skin))).
    { apply IH; auto; intros; try (apply Hin; now right); try (apply Hfit; now right); try (apply Helem; auto; now right). }
    destruct (Hin s (or_introl eq_refl)) as [A1 A2]. pose proof (Hfit s (or_introl eq_refl)) as A3.
    assert (Dis : forall x t u, In x skin -> 0 <= t < 4 -> 0 <= u < 4 -> triangle_entity_id (side_id offset s) t <> triangle_entity_id (side_id offset x) u).
    { intros x t u Hx Ht Hu Eq. destruct (Hin x (or_intror Hx)) as [B1 B2]. pose proof (Hfit x (or_intror Hx)) as B3.
      destruct (@C35_facet_ids offset s t A2 Ht A3) as (P1 & P2 & _). destruct (@C35_facet_ids offset x u B2 Hu B3) as (Q1 & Q2 & _). rewrite Eq in P1, P2.
      apply S1. apply in_map_iff. exists x. split; [|exact Hx].
      assert (fst x = fst s) by (apply Helem; [now right|now left|congruence]). assert (snd x = snd s) by lia. destruct x, s; simpl in *; congruence. }
    assert (In_out : forall t, 0 <= t < 4 -> ~ In (triangle_entity_id (side_id offset s) t) (flat_map (fun id => map (triangle_entity_id id) [0; 1; 2; 3]) (map (side_id offset) skin))).
    { intros t Ht Hx. apply in_flat_map in Hx as (id & Hid & Hx). apply in_map_iff in Hid as (x & <- & Hx'). apply in_map_iff in Hx as (u & Eu & Hu).
      apply (Dis x t u Hx' Ht); [simpl in Hu; lia|auto]. }
    assert (Loc : forall t u, 0 <= t < 4 -> 0 <= u < 4 -> triangle_entity_id (side_id offset s) t = triangle_entity_id (side_id offset s) u -> t = u).
    { intros t u Ht Hu Eq. destruct (@C35_facet_ids offset s t A2 Ht A3) as (_ & _ & P). destruct (@C35_facet_ids offset s u A2 Hu A3) as (_ & _ & Q). congruence. }
    cbn [app map]. repeat constructor; try exact IH'; cbn [In]; intros [Hx|Hx] || intros Hx;
    repeat match goal with
    | H : _ = triangle_entity_id _ _ |- _ => apply Loc in H; lia
    | H : _ \/ _ |- _ => destruct H as [H|H]
    | H : In _ _ |- _ => revert H; apply In_out; lia
    end.
  - intros node id Hnode Hid. apply in_flat_map in Hid as (x & Hx & Hid). apply in_map_iff in Hx as (s & <- & Hs'). apply in_map_iff in Hid as (t & <- & Ht).
    destruct (Hin s Hs') as [A1 A2]. pose proof (Hfit s Hs') as A3. rewrite Forall_forall in Hpos. pose proof (Hpos _ A1) as A4.
    assert (Ht' : 0 <= t < 4) by (simpl in Ht; lia).
    intros Eq. destruct (@C35_facet_ids offset s t A2 Ht' A3) as (P & _ & _). rewrite Eq in P.
    assert ((node + 1) / 32 <= (offset + 1) / 32) by (apply Z.div_le_mono; lia).
    assert ((offset + 1) / 32 <= offset + 1) by (apply Z.div_le_upper_bound; lia).
    assert ((node + 1) / 32 = fst (fst s) + 1 + offset) by lia.
    destruct (Z.eq_dec offset 0) as [->|].
    + change ((0 + 1) / 32) with 0 in *. lia.
    + assert ((offset + 1) / 32 < offset + 1) by (apply Z.div_lt; lia). lia.
Qed.
Print Assumptions C35_unique.
(** Ids need 32 (element + 1 + offset) to fit an int: the shift of a larger value is undefined. *)
Theorem C35_overflow_refuted : exists e offset, 0 <= fst e + 1 + offset <= 2 ^ 26 /\
  skin_blocks [stored [e]] offset = UB.
Proof. exists (2 ^ 25, [0; 1; 2; 3; 4; 5; 6; 7]), (2 ^ 25 - 1). split; [cbn [fst]; lia|]. reflexivity. Qed.
Print Assumptions C35_overflow_refuted.

(** ** C34 *)
(** For every schedule of the exchange: when all ranks have returned, each rank has kept, in order and
    with their ids, exactly the faces that no other rank has. *)
Theorem C34_exchange : forall inputs schedule results, Forall rank_ok inputs ->
  remove_internal_skin_faces inputs schedule = Ok (Some results) ->
  length results = length inputs /\
  forall r inp, nth_error inputs r = Some inp -> exists kept : list Z -> bool, (forall f, kept f = true <-> ~ shared inputs r f) /\
    let result := filter (fun p => kept (fst p)) (combine (ri_faces inp) (ri_ids inp)) in
    nth_error results r = Some (map fst result, map snd result).
Proof.
  intros inputs schedule results ok E. destruct (result_ok ok schedule) as [E'|(results' & E' & L & H)]; rewrite E in E'; [discriminate|]. injection E' as <-.
  split; [exact L|]. intros r inp Hr. exists (fun f => negb (sharedb inputs r inp f)). split; [|cbv zeta; now apply H].
  intros f. rewrite negb_true_iff, <- not_true_iff_false. now rewrite (@sharedb_spec inputs r inp f Hr).
Qed.
Print Assumptions C34_exchange.
(** No schedule reads a wrong amount of data or gets stuck: at every point either all ranks have
    returned or some rank can move, and every schedule can be continued to the end within
    4 n (n - 1) moves. *)
Theorem C34_no_deadlock : forall inputs schedule, Forall rank_ok inputs ->
  let n := length inputs in
  exists more results, (length more <= n * (4 * (n - 1)))%nat /\ remove_internal_skin_faces inputs (schedule ++ more) = Ok (Some results).
Proof.
  intros inputs schedule ok n.
  destruct (@completes inputs ok (length (map rkeys inputs) * (4 * (length (map rkeys inputs) - 1))) schedule ltac:(lia)) as (more & L & F).
  rewrite map_length in L. fold n in L. destruct (@complete_when_done inputs ok (schedule ++ more)) as [results E].
  - exact F.
  - exists more, results. auto.
Qed.
Print Assumptions C34_no_deadlock.
Theorem C34_every_schedule_safe : forall inputs schedule, Forall rank_ok inputs ->
  remove_internal_skin_faces inputs schedule = Ok None \/ exists results, remove_internal_skin_faces inputs schedule = Ok (Some results).
Proof. intros inputs schedule ok. destruct (result_ok ok schedule) as [E|(results & E & _)]; eauto. Qed.
Print Assumptions C34_every_schedule_safe.

(** Two ranks with one common face (global nodes 4 5 6 7). *)
Example C34_example : let a := RankInput [[0; 1; 2; 3]; [4; 5; 6; 7]] [10; 11] [0; 1; 2; 3; 4; 5; 6; 7] in
  let b := RankInput [[0; 1; 2; 3]; [4; 5; 6; 7]] [20; 21] [5; 4; 7; 6; 8; 9; 10; 11] in
  Forall rank_ok [a; b] /\
  remove_internal_skin_faces [a; b] [0; 0; 1; 0; 0; 1; 1; 1; 0; 0]%nat = Ok (Some [([[0; 1; 2; 3]], [10]); ([[4; 5; 6; 7]], [21])]).
Proof.
  cbv zeta. split; [|reflexivity].
  assert (NP : forall x y z w a b c d : Z, ~ In x [a; b; c; d] -> ~ Permutation [x; y; z; w] [a; b; c; d]) by (intros x y z w a b c d N P; apply N; apply (Permutation_in _ P); now left).
  repeat constructor; cbn [ri_global ri_faces ri_ids length]; try lia; cbv [global_nodes map global_node Z.to_nat Pos.to_nat Pos.iter_op Nat.add nth]; apply NP; simpl; lia.
Qed.

(** ** The skin of a distributed mesh (C33 and C34 together) *)
Definition rank_mesh := (list (list hex) * list Z)%type.
Definition mesh_ok (m : rank_mesh) : Prop :=
  Forall hexes (fst m) /\ NoDup (snd m) /\ Forall (fun e => Forall (fun n => 0 <= n < Z.of_nat (length (snd m))) (snd e)) (concat (fst m)).
Definition global_mesh (ms : list rank_mesh) : list hex := flat_map (fun m => map (globalize (snd m)) (concat (fst m))) ms.

Lemma side_global g e o : length (snd e) = 8%nat -> side o (globalize g e) = global_nodes g (side o e).
Proof.
  intros H. unfold globalize, side, global_nodes. cbn [fst snd].
  assert (N : forall k, (k < 8)%nat -> nth k (map (global_node g) (snd e)) 0 = global_node g (nth k (snd e) 0)).
  { intros k Hk. rewrite nth_indep with (d' := global_node g 0) by (rewrite map_length; lia). apply map_nth. }
  destruct o as [|[|[|[|[|o]]]]]; cbn [map]; rewrite !N by lia; reflexivity.
Qed.
Lemma perm_map_inj (f : Z -> Z) (D : Z -> Prop) a b : (forall x y, D x -> D y -> f x = f y -> x = y) -> Forall D a -> Forall D b ->
  Permutation (map f a) (map f b) -> Permutation a b.
Proof.
  intros Hinj. revert b; induction a as [|x a IH]; intros b Ha Hb P.
  - cbn [map] in P. apply Permutation_nil in P. destruct b; [constructor|discriminate].
  - cbn [map] in P. assert (Hin : In (f x) (map f b)) by (apply (Permutation_in _ P); now left).
    apply in_map_iff in Hin as (y & Ey & Hy). inversion Ha as [|? ? Dx Da]; subst. rewrite Forall_forall in Hb.
    assert (y = x) by (apply Hinj; auto). subst y. apply in_split in Hy as (b1 & b2 & ->).
    apply Permutation_cons_app. apply IH; [exact Da| |].
    + apply Forall_forall. intros z Hz. apply Hb. apply in_app_iff in Hz. apply in_app_iff. simpl. tauto.
    + rewrite map_app in P |- *. cbn [map] in P. now apply Permutation_cons_app_inv in P.
Qed.
Lemma side_nodes_in e o n : length (snd e) = 8%nat -> In n (side o e) -> In n (snd e).
Proof.
  intros H Hn. assert (N : forall k, (k < 8)%nat -> In (nth k (snd e) 0) (snd e)) by (intros; apply nth_In; lia).
  destruct o as [|[|[|[|[|o]]]]]; cbn [side In] in Hn; repeat destruct Hn as [<-|Hn]; try contradiction; apply N; lia.
Qed.
Lemma global_same m s t : mesh_ok m -> In s (sides (concat (fst m))) -> In t (sides (concat (fst m))) ->
  (same_face s t <-> Permutation (global_nodes (snd m) (nodes_of s)) (global_nodes (snd m) (nodes_of t))).
Proof.
  intros (H1 & H2 & H3) Hs Ht. apply in_sides in Hs as [Hs _], Ht as [Ht _].
  assert (L : forall e, In e (concat (fst m)) -> length (snd e) = 8%nat).
  { intros e He. apply in_concat in He as (b & Hb & He). rewrite Forall_forall in H1. specialize (H1 b Hb). unfold hexes in H1. rewrite Forall_forall in H1. now apply H1. }
  assert (D : forall u, In (fst u) (concat (fst m)) -> Forall (fun n => 0 <= n < Z.of_nat (length (snd m))) (nodes_of u)).
  { intros u Hu. apply Forall_forall. intros n Hn. unfold nodes_of in Hn. apply side_nodes_in in Hn; [|now apply L].
    rewrite Forall_forall in H3. specialize (H3 _ Hu). rewrite Forall_forall in H3. now apply H3. }
  unfold same_face. split; [apply Permutation_map|].
  apply perm_map_inj with (D := fun n => 0 <= n < Z.of_nat (length (snd m))); [|now apply D..].
  intros x y Hx Hy E. unfold global_node in E. apply NoDup_nth in E; try lia. exact H2.
Qed.

Lemma Forall2_nth_error_l {A B} (P : A -> B -> Prop) l l' : Forall2 P l l' -> forall i a, nth_error l i = Some a -> exists b, nth_error l' i = Some b /\ P a b.
Proof. induction 1 as [|x y l l' H1 H2 IH]; intros [|i] a Hi; try discriminate; [injection Hi as ->; exists y; auto|]. apply (IH i a Hi). Qed.
Lemma Forall2_len {A B} (P : A -> B -> Prop) l l' : Forall2 P l l' -> length l = length l'.
Proof. induction 1; simpl; congruence. Qed.
Definition gside (g : list Z) (s : hex * nat) : hex * nat := (globalize g (fst s), snd s).
Lemma sides_globalize g es : sides (map (globalize g) es) = map (gside g) (sides es).
Proof. unfold sides. induction es as [|e es IH]; [reflexivity|]. cbn [map flat_map]. rewrite map_app, IH. f_equal. Qed.
Lemma sides_app a b : sides (a ++ b) = sides a ++ sides b.
Proof. unfold sides. apply flat_map_app. Qed.
Lemma sides_global ms : sides (global_mesh ms) = flat_map (fun m : rank_mesh => map (gside (snd m)) (sides (concat (fst m)))) ms.
Proof. unfold global_mesh. induction ms as [|m ms IH]; [reflexivity|]. cbn [flat_map]. rewrite sides_app, sides_globalize, IH. reflexivity. Qed.
Lemma mesh_len m e : mesh_ok m -> In e (concat (fst m)) -> length (snd e) = 8%nat.
Proof.
  intros (H1 & _ & _) He. apply in_concat in He as (b & Hb & He). rewrite Forall_forall in H1. specialize (H1 b Hb). unfold hexes in H1. rewrite Forall_forall in H1. now apply H1.
Qed.
Lemma nodes_gside m s : mesh_ok m -> In s (sides (concat (fst m))) -> nodes_of (gside (snd m) s) = global_nodes (snd m) (nodes_of s).
Proof. intros Hm Hs. unfold nodes_of, gside. cbn [fst snd]. apply side_global. apply (mesh_len _ Hm). now apply in_sides in Hs. Qed.
Lemma gside_same m m' s t : mesh_ok m -> mesh_ok m' -> In s (sides (concat (fst m))) -> In t (sides (concat (fst m'))) ->
  (skey (gside (snd m) s) = skey (gside (snd m') t) <-> Permutation (global_nodes (snd m) (nodes_of s)) (global_nodes (snd m') (nodes_of t))).
Proof. intros Hm Hm' Hs Ht. rewrite skey_same. unfold same_face. now rewrite (nodes_gside _ Hm Hs), (nodes_gside _ Hm' Ht). Qed.
Lemma with_key_app a b k : with_key (a ++ b) k = with_key a k ++ with_key b k.
Proof. apply filter_app. Qed.
Lemma with_key_gside m s : mesh_ok m -> In s (sides (concat (fst m))) ->
  with_key (map (gside (snd m)) (sides (concat (fst m)))) (skey (gside (snd m) s)) = map (gside (snd m)) (with_key (sides (concat (fst m))) (skey s)).
Proof.
  intros Hm Hs. unfold with_key. set (l := sides (concat (fst m))) in *. assert (Hi : incl l l) by apply incl_refl. revert Hi. generalize l at 1 3 4. intros l0 Hi.
  induction l0 as [|t l0 IH]; [reflexivity|]. cbn [map filter].
  assert (Ht : In t l) by (apply Hi; now left).
  assert (E : key_eqb (skey (gside (snd m) t)) (skey (gside (snd m) s)) = key_eqb (skey t) (skey s)).
  { apply eq_true_iff_eq. rewrite !key_eqb_eq. rewrite (gside_same _ _ Hm Hm Ht Hs), skey_same. symmetry. now apply global_same. }
  rewrite E, IH by (intros x Hx; apply Hi; now right). destruct (key_eqb (skey t) (skey s)); reflexivity.
Qed.
Lemma lone_one l s : lone_side l s <-> with_key l (skey s) = [s].
Proof.
  rewrite with_key_one. unfold lone_side. split.
  - intros (a & b & E & H). split; [reflexivity|]. exists a, b. split; [exact E|]. intros t Ht Hk. apply (H t Ht). now apply skey_same.
  - intros (_ & a & b & E & H). exists a, b. split; [exact E|]. intros t Ht Hk. apply (H t Ht). now apply skey_same.
Qed.
Lemma one_of_length {A} (x : A) l : In x l -> length l = 1%nat -> l = [x].
Proof. intros Hx Hl. destruct l as [|y [|z l]]; try discriminate. destruct Hx as [->|[]]. reflexivity. Qed.
Lemma two_ranks {A} (f : A -> list (hex * nat)) ms q r mq mr k : q <> r -> nth_error ms q = Some mq -> nth_error ms r = Some mr ->
  (length (with_key (f mq) k) + length (with_key (f mr) k) <= length (with_key (flat_map f ms) k))%nat.
Proof.
  assert (One : forall ms q mq, nth_error ms q = Some mq -> (length (with_key (f mq) k) <= length (with_key (flat_map f ms) k))%nat).
  { clear. induction ms as [|m ms IH]; intros [|q] mq H; try discriminate; cbn [flat_map]; rewrite with_key_app, app_length.
    - injection H as ->. lia.
    - specialize (IH q mq H). lia. }
  revert q r; induction ms as [|m ms IH]; intros [|q] [|r] Hqr Hq Hr; try discriminate; try congruence; cbn [flat_map]; rewrite with_key_app, app_length.
  - injection Hq as ->. specialize (One ms r mr Hr). lia.
  - injection Hr as ->. specialize (One ms q mq Hq). lia.
  - specialize (IH q r ltac:(intros ->; now apply Hqr) Hq Hr). lia.
Qed.
Lemma one_rank {A} (f : A -> list (hex * nat)) ms r mr k : nth_error ms r = Some mr -> (forall q mq, q <> r -> nth_error ms q = Some mq -> with_key (f mq) k = []) ->
  with_key (flat_map f ms) k = with_key (f mr) k.
Proof.
  revert r; induction ms as [|m ms IH]; intros [|r] Hr H; try discriminate; cbn [flat_map]; rewrite with_key_app.
  - injection Hr as ->. replace (with_key (flat_map f ms) k) with (@nil (hex * nat)); [apply app_nil_r|].
    assert (Z0 : forall q mq, nth_error ms q = Some mq -> with_key (f mq) k = []) by (intros q mq Hq; apply (H (S q) mq ltac:(lia) Hq)).
    clear - Z0. induction ms as [|x ms IH]; [reflexivity|]. cbn [flat_map]. rewrite with_key_app, <- IH, (Z0 0%nat x eq_refl); [reflexivity|]. intros q mq Hq. apply (Z0 (S q) mq Hq).
  - rewrite (H 0%nat m ltac:(lia) eq_refl). cbn [app]. apply (IH r); [exact Hr|]. intros q mq Hq Hm. apply (H (S q) mq ltac:(lia) Hm).
Qed.

(** Every rank skins its own blocks and the ranks then remove the faces they share: if no face of the whole
    mesh belongs to three sides, what rank r keeps is exactly those of its sides whose face no other
    side of the whole mesh shares, for every schedule of the exchange. *)
Definition skinned (offset : Z) (m : rank_mesh) (inp : rank_input) : Prop :=
  skin_blocks (map stored (fst m)) offset = Ok (ri_faces inp, ri_ids inp) /\ ri_global inp = snd m.
Theorem C34_distributed_skin : forall offset ms inputs schedule results, Forall mesh_ok ms ->
  Forall (fun m => ids_fit offset (concat (fst m))) ms -> ~ triple_side (sides (global_mesh ms)) ->
  Forall2 (skinned offset) ms inputs -> remove_internal_skin_faces inputs schedule = Ok (Some results) ->
  forall r m, nth_error ms r = Some m -> exists kept,
    nth_error results r = Some (map nodes_of kept, map (side_id offset) kept) /\
    forall s, In s kept <-> In s (sides (concat (fst m))) /\ lone_side (sides (global_mesh ms)) (globalize (snd m) (fst s), snd s).
Proof.
  intros offset ms inputs schedule results Hms Hids HT HF HR.
  rewrite sides_global in *. set (G := fun m : rank_mesh => map (gside (snd m)) (sides (concat (fst m)))) in *.
  rewrite <- with_key_three in HT.
  assert (Hbig : forall k, (length (with_key (flat_map G ms) k) < 3)%nat) by (intros k; destruct (Nat.lt_ge_cases (length (with_key (flat_map G ms) k)) 3); [assumption|exfalso; apply HT; eauto]).
  rewrite Forall_forall in Hms, Hids.
  assert (Hone : forall r m, nth_error ms r = Some m -> ~ triple_side (sides (concat (fst m)))).
  { intros r m Hr HT'. apply with_key_three in HT' as (k & Hk). pose proof (nth_error_In _ _ Hr) as Hm.
    destruct (with_key (sides (concat (fst m))) k) as [|s l] eqn:El; [simpl in Hk; lia|].
    assert (Hs : In s (with_key (sides (concat (fst m))) k)) by (rewrite El; now left). apply with_key_in in Hs as [Hs Es]. subst k.
    pose proof (@with_key_gside m s (Hms m Hm) Hs) as W. apply (f_equal (@length _)) in W. rewrite map_length, El in W.
    specialize (Hbig (skey (gside (snd m) s))). fold (G m) in W.
    apply nth_error_split in Hr as (a & b & -> & _). rewrite flat_map_app in Hbig. cbn [flat_map] in Hbig. rewrite !with_key_app, !app_length in Hbig. lia. }
  assert (Hskin : forall r m, nth_error ms r = Some m -> exists inp skin, nth_error inputs r = Some inp /\ ri_global inp = snd m /\ ri_faces inp = map nodes_of skin /\
     ri_ids inp = map (side_id offset) skin /\ (forall s, In s skin <-> lone_side (sides (concat (fst m))) s) /\ ForallOrdPairs (fun s t => ~ same_face s t) skin).
  { intros r m Hr. pose proof (nth_error_In _ _ Hr) as Hm.
    destruct (@Forall2_nth_error_l _ _ _ _ _ HF r m Hr) as (inp & Hi & Hsk & Hg).
    destruct (@C33_skin_exact (fst m) offset (proj1 (Hms m Hm)) (Hids m Hm) (Hone r m Hr)) as (skin & E & H1 & H2).
    rewrite Hsk in E. injection E as E1 E2. exists inp, skin. auto 10. }
  assert (Lone_in : forall l s, lone_side l s -> In s l) by (intros l s (a & b & -> & _); apply in_app_iff; right; now left).
  assert (Hok : Forall rank_ok inputs).
  { apply Forall_forall. intros inp Hi. apply In_nth_error in Hi as [r Hi].
    assert (Hr : exists m, nth_error ms r = Some m) by (destruct (nth_error ms r) as [m|] eqn:E; [eauto|]; apply nth_error_None in E; apply Forall2_len in HF; assert (r < length inputs)%nat by (apply nth_error_Some; congruence); lia).
    destruct Hr as [m Hr]. pose proof (nth_error_In _ _ Hr) as Hm. destruct (Hskin r m Hr) as (inp' & skin & Hi' & Eg & Ef & Ei & Hl & Hd). rewrite Hi in Hi'. injection Hi' as <-.
    unfold rank_ok. rewrite Eg, Ef, Ei, !map_length. split; [reflexivity|].
    assert (Hin : forall s, In s skin -> In s (sides (concat (fst m)))) by (intros s Hs; apply Lone_in; now apply Hl).
    split.
    - apply Forall_forall. intros f Hf. apply in_map_iff in Hf as (s & <- & Hs). apply Hin in Hs. apply in_sides in Hs as [Hs Ho]. split.
      + unfold nodes_of, side. destruct (snd s) as [|[|[|[|[|?]]]]]; reflexivity.
      + apply Forall_forall. intros nd Hn. unfold nodes_of in Hn. apply side_nodes_in in Hn; [|apply (@mesh_len m _ (Hms m Hm) Hs)].
        destruct (Hms m Hm) as (_ & _ & H3). rewrite Forall_forall in H3. specialize (H3 _ Hs). rewrite Forall_forall in H3. now apply H3.
    - clear - Hd Hin Hms Hm. induction Hd as [|s l H1 H2 IH]; [constructor|]. cbn [map]. constructor; [|apply IH; intros; apply Hin; now right].
      apply Forall_forall. intros f Hf. apply in_map_iff in Hf as (t & <- & Ht). rewrite Forall_forall in H1. intros P. apply (H1 t Ht).
      apply (@global_same m s t (Hms m Hm)); [apply Hin; now left|apply Hin; now right|exact P]. }
  destruct (C34_exchange schedule Hok HR) as [_ HX].
  intros r m Hr. pose proof (nth_error_In _ _ Hr) as Hm. destruct (Hskin r m Hr) as (inp & skin & Hi & Eg & Ef & Ei & Hl & Hd).
  destruct (HX r inp Hi) as (kept & Hk & Hres). cbv zeta in Hres.
  exists (filter (fun s => kept (nodes_of s)) skin). split.
  - rewrite Hres, Ef, Ei. do 2 f_equal; clear; induction skin as [|s l IH]; try reflexivity; cbn [map combine filter fst]; destruct (kept (nodes_of s)); cbn [map fst snd]; congruence.
  - intros s. rewrite filter_In, Hl, Hk. fold (gside (snd m) s).
    assert (Hsplit : forall Hs : In s (sides (concat (fst m))), with_key (G m) (skey (gside (snd m) s)) = map (gside (snd m)) (with_key (sides (concat (fst m))) (skey s))) by (intros Hs; apply with_key_gside; auto).
    split.
    + intros [Hlone Hns]. pose proof (Lone_in _ _ Hlone) as Hs. split; [exact Hs|]. apply lone_one. rewrite (@one_rank _ G ms r m _ Hr).
      * rewrite (Hsplit Hs). apply lone_one in Hlone. rewrite Hlone. reflexivity.
      * intros q mq Hq Hmq. destruct (with_key (G mq) (skey (gside (snd m) s))) as [|x l] eqn:El; [reflexivity|exfalso].
        assert (Hx : In x (with_key (G mq) (skey (gside (snd m) s)))) by (rewrite El; now left). apply with_key_in in Hx as [Hx Ex].
        unfold G in Hx. apply in_map_iff in Hx as (t & <- & Ht). pose proof (nth_error_In _ _ Hmq) as Hmq'.
        pose proof (@with_key_gside mq t (Hms mq Hmq') Ht) as Wq. rewrite Ex in Wq. fold (G mq) in Wq.
        assert (L2 : length (with_key (sides (concat (fst mq))) (skey t)) = 1%nat).
        { pose proof (@two_ranks _ G ms q r mq m (skey (gside (snd m) s)) Hq Hmq Hr) as T. rewrite (Hsplit Hs), Wq, !map_length in T.
          apply lone_one in Hlone. rewrite Hlone in T. cbn [length] in T. specialize (Hbig (skey (gside (snd m) s))).
          assert (In t (with_key (sides (concat (fst mq))) (skey t))) by (apply with_key_in; auto).
          destruct (with_key (sides (concat (fst mq))) (skey t)) as [|a [|b w]]; [contradiction|reflexivity|]. cbn [length] in T. lia. }
        assert (Ht1 : lone_side (sides (concat (fst mq))) t) by (apply lone_one; apply one_of_length; [apply with_key_in; auto|exact L2]).
        destruct (Hskin q mq Hmq) as (inq & skq & Hiq & Egq & Efq & _ & Hlq & _). apply Hns.
        exists q, inp, inq, (nodes_of t). repeat split; auto; [rewrite Efq; apply in_map; now apply Hlq|].
        rewrite Eg, Egq. apply (@gside_same m mq s t (Hms m Hm) (Hms mq Hmq') Hs Ht). symmetry. exact Ex.
    + intros [Hs Hlone]. apply lone_one in Hlone. split.
      * apply lone_one. apply one_of_length; [apply with_key_in; auto|].
        assert (L : (length (with_key (G m) (skey (gside (snd m) s))) <= 1)%nat).
        { pose proof (f_equal (@length _) Hlone) as HL. cbn [length] in HL. rewrite <- HL. apply nth_error_split in Hr as (a & b & -> & _). rewrite flat_map_app. cbn [flat_map]. rewrite !with_key_app, !app_length. lia. }
        rewrite (Hsplit Hs), map_length in L. assert (In s (with_key (sides (concat (fst m))) (skey s))) by (apply with_key_in; auto).
        destruct (with_key (sides (concat (fst m))) (skey s)) as [|x [|y w]]; [contradiction|reflexivity|cbn [length] in L; lia].
      * intros (q & inp1 & inq & f' & Hq & Hi1 & Hiq & Hf' & P). rewrite Hi in Hi1. injection Hi1 as <-.
        assert (Hmq : exists mq, nth_error ms q = Some mq) by (destruct (nth_error ms q) as [mq|] eqn:E; [eauto|]; apply nth_error_None in E; apply Forall2_len in HF; assert (q < length inputs)%nat by (apply nth_error_Some; congruence); lia).
        destruct Hmq as [mq Hmq]. pose proof (nth_error_In _ _ Hmq) as Hmq'. destruct (Hskin q mq Hmq) as (inq' & skq & Hiq' & Egq & Efq & _ & Hlq & _). rewrite Hiq in Hiq'. injection Hiq' as <-.
        rewrite Efq in Hf'. apply in_map_iff in Hf' as (t & <- & Ht). apply Hlq in Ht. apply Lone_in in Ht. rewrite Eg, Egq in P.
        pose proof (proj2 (@gside_same m mq s t (Hms m Hm) (Hms mq Hmq') Hs Ht) P) as K.
        pose proof (@two_ranks _ G ms q r mq m (skey (gside (snd m) s)) Hq Hmq Hr) as T. rewrite Hlone in T. cbn [length] in T.
        assert (A1 : In (gside (snd m) s) (with_key (G m) (skey (gside (snd m) s)))) by (apply with_key_in; split; [unfold G; now apply in_map|reflexivity]).
        assert (A2 : In (gside (snd mq) t) (with_key (G mq) (skey (gside (snd m) s)))) by (apply with_key_in; split; [unfold G; now apply in_map|now symmetry]).
        destruct (with_key (G m) (skey (gside (snd m) s))); [contradiction|]. destruct (with_key (G mq) (skey (gside (snd m) s))); [contradiction|]. cbn [length] in T. lia.
Qed.
Print Assumptions C34_distributed_skin.
(** Two ranks, one hexahedron each, with a common face: the hypotheses are met. *)
Example C34_distributed_example : let a := ([[(0, [0; 1; 2; 3; 4; 5; 6; 7])]], [0; 1; 2; 3; 4; 5; 6; 7]) : rank_mesh in
  let b := ([[(1, [0; 1; 2; 3; 4; 5; 6; 7])]], [4; 5; 6; 7; 8; 9; 10; 11]) : rank_mesh in
  Forall mesh_ok [a; b] /\ Forall (fun m => ids_fit 12 (concat (fst m))) [a; b] /\
  exists ia ib, Forall2 (skinned 12) [a; b] [ia; ib] /\
   exists ra rb, remove_internal_skin_faces [ia; ib] [0; 0; 1; 0; 0; 1; 1; 1; 0; 0]%nat = Ok (Some [ra; rb]) /\ length (fst ra) = 5%nat /\ length (fst rb) = 5%nat.
Proof.
  cbv zeta. split; [|split].
  - repeat constructor; cbn [In snd fst length Z.of_nat]; try lia; intuition lia.
  - repeat constructor; cbn; lia.
  - eexists (RankInput _ _ _), (RankInput _ _ _). split.
    + constructor; [|constructor; [|constructor]]; (split; [reflexivity|reflexivity]).
    + eexists _, _. split; [reflexivity|]. split; reflexivity.
Qed.
