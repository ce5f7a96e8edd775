(** Exchange of contact faces as bytes. *)
From Verif Require Import Base ListLemmas Loops ContactModel ContactSpec WireModel WireSpec.
From Coq Require Import Reals Lra.
Set Implicit Arguments.
Local Open Scope Z_scope.

Lemma to_bytes_length n z : length (to_bytes n z) = n.
Proof. revert z; induction n as [|n IH]; intros z; [reflexivity|]. cbn [to_bytes length]. now rewrite IH. Qed.
Lemma from_to n z : 0 <= z < 256 ^ Z.of_nat n -> from_bytes (to_bytes n z) = z.
Proof.
  revert z; induction n as [|n IH]; intros z Hz; [cbn in *; lia|]. cbn [to_bytes from_bytes]. rewrite IH.
  - pose proof (Z.div_mod z 256). lia.
  - rewrite Nat2Z.inj_succ, Z.pow_succ_r in Hz by lia. split; [apply Z.div_pos; lia|apply Z.div_lt_upper_bound; lia].
Qed.
Lemma double_rt d : is_double_bits d -> double_of (double_bytes d) = d.
Proof. intros H. apply from_to. exact H. Qed.
Lemma int_rt i : is_int i -> int_of (int_bytes i) = i.
Proof.
  intros H. unfold int_of, int_bytes. rewrite from_to; [|change (256 ^ Z.of_nat size_int) with (2 ^ 32); apply Z.mod_pos_bound; lia]. unfold is_int in H. change (2 ^ 32) with 4294967296 in *. change (2 ^ 31) with 2147483648 in *.
  destruct (Z.ltb_spec (i mod 4294967296) 2147483648) as [L|L]; pose proof (Z.div_mod i 4294967296 ltac:(lia)); assert (-1 <= i / 4294967296 < 1) by (split; [apply Z.div_le_lower_bound; lia|apply Z.div_lt_upper_bound; lia]); pose proof (Z.mod_pos_bound i 4294967296 ltac:(lia)); nia.
Qed.
Definition face_bytes (f : wire_face) : list Z :=
  concat (map double_bytes [coord_1_x_ f; coord_1_y_ f; coord_1_z_ f; coord_2_x_ f; coord_2_y_ f; coord_2_z_ f; coord_3_x_ f; coord_3_y_ f; coord_3_z_ f; w_char_len_ f]) ++
  concat (map int_bytes [w_global_id_ f; w_node_1_ f; w_node_2_ f; w_fict_1_ f; w_fict_2_ f; w_fict_3_ f; w_fict_4_ f]).
Lemma face_bytes_length f : length (face_bytes f) = 108%nat.
Proof. unfold face_bytes. cbn [map concat]. rewrite !app_length. unfold double_bytes, int_bytes. rewrite !to_bytes_length. reflexivity. Qed.
(** writing in sequence *)
Lemma put_ok done rest bytes : (length bytes <= length rest)%nat -> put bytes (done ++ rest, length done) = Ok (done ++ bytes ++ skipn (length bytes) rest, length (done ++ bytes)).
Proof.
  intros H. unfold put, memcpy_to. cbn [fst snd]. rewrite app_length. destruct (Nat.leb_spec (length done + length bytes) (length done + length rest)); [|lia]. cbn [obind].
  rewrite firstn_app, firstn_all, Nat.sub_diag, firstn_O, app_nil_r, skipn_app. rewrite skipn_all2 by lia. replace (length done + length bytes - length done)%nat with (length bytes) by lia. now rewrite app_length.
Qed.
Lemma put_ok' done rest bytes n : length bytes = n -> (n <= length rest)%nat -> put bytes (done ++ rest, length done) = Ok ((done ++ bytes) ++ skipn n rest, length (done ++ bytes)).
Proof. intros <- H. rewrite put_ok by exact H. now rewrite <- app_assoc. Qed.
Lemma serialize_face_ok f done rest : (108 <= length rest)%nat ->
  serialize_face f (done ++ rest, length done) = Ok ((done ++ face_bytes f) ++ skipn 108 rest, length (done ++ face_bytes f)).
Proof.
  intros H. unfold serialize_face.
  do 10 (rewrite (@put_ok' _ _ (double_bytes _) 8 (to_bytes_length _ _)) by (rewrite ?skipn_length; lia); cbn [obind]).
  do 6 (rewrite (@put_ok' _ _ (int_bytes _) 4 (to_bytes_length _ _)) by (rewrite ?skipn_length; lia); cbn [obind]).
  rewrite (@put_ok' _ _ (int_bytes _) 4 (to_bytes_length _ _)) by (rewrite ?skipn_length; lia).
  unfold face_bytes. cbn [map concat]. rewrite !app_nil_r. rewrite <- !app_assoc. rewrite !skipn_skipn. reflexivity.
Qed.
Lemma serialize_loop faces : forall done rest, (108 * length faces <= length rest)%nat ->
  ofold (fun st f => serialize_face f st) faces (done ++ rest, length done) = Ok ((done ++ concat (map face_bytes faces)) ++ skipn (108 * length faces) rest, length (done ++ concat (map face_bytes faces))).
Proof.
  induction faces as [|f faces IH]; intros done rest H; cbn [ofold length map concat] in *.
  - rewrite app_nil_r, Nat.mul_0_r. reflexivity.
  - rewrite serialize_face_ok by lia. cbn [obind]. rewrite IH by (rewrite skipn_length; lia). rewrite skipn_skipn, <- !app_assoc. replace (108 * S (length faces))%nat with (108 * length faces + 108)%nat by lia. reflexivity.
Qed.
Lemma read_ok done bytes rest n : length bytes = n -> memcpy_from (done ++ bytes ++ rest) (length done) n = Ok bytes.
Proof.
  intros <-. unfold memcpy_from. rewrite !app_length. destruct (Nat.leb_spec (length done + length bytes) (length done + (length bytes + length rest))); [|lia].
  rewrite skipn_app, Nat.sub_diag, skipn_all2 by lia. cbn [app skipn]. rewrite firstn_app, firstn_all, Nat.sub_diag, firstn_O, app_nil_r. reflexivity.
Qed.
Lemma get_double_ok done d rest : is_double_bits d -> get_double (done ++ double_bytes d ++ rest) (length done) = Ok (d, length (done ++ double_bytes d)).
Proof. intros H. unfold get_double. rewrite (@read_ok _ (double_bytes d) _ size_double) by apply to_bytes_length. cbn [obind]. rewrite double_rt, app_length by exact H. unfold double_bytes. now rewrite to_bytes_length. Qed.
Lemma get_int_ok done d rest : is_int d -> get_int (done ++ int_bytes d ++ rest) (length done) = Ok (d, length (done ++ int_bytes d)).
Proof. intros H. unfold get_int. rewrite (@read_ok _ (int_bytes d) _ size_int) by apply to_bytes_length. cbn [obind]. rewrite int_rt, app_length by exact H. unfold int_bytes. now rewrite to_bytes_length. Qed.
Lemma get_double_at buf pre d rest : buf = pre ++ double_bytes d ++ rest -> is_double_bits d -> get_double buf (length pre) = Ok (d, length (pre ++ double_bytes d)).
Proof. intros ->. apply get_double_ok. Qed.
Lemma get_int_at buf pre d rest : buf = pre ++ int_bytes d ++ rest -> is_int d -> get_int buf (length pre) = Ok (d, length (pre ++ int_bytes d)).
Proof. intros ->. apply get_int_ok. Qed.
Lemma unserialize_face_ok f done rest : machine_face f -> unserialize_face (done ++ face_bytes f ++ rest) (length done) = Ok (f, length (done ++ face_bytes f)).
Proof.
  intros [HD HI]. rewrite Forall_forall in HD, HI. unfold face_bytes. cbn [map concat]. rewrite !app_nil_r. rewrite <- !app_assoc. unfold unserialize_face.
  do 10 (erewrite get_double_at; [|rewrite <- ?app_assoc; reflexivity|apply HD; cbn [In]; tauto]; cbn [obind]).
  do 7 (erewrite get_int_at; [|rewrite <- ?app_assoc; reflexivity|apply HI; cbn [In]; tauto]; cbn [obind]).
  f_equal. f_equal; [destruct f; reflexivity|]. rewrite !app_length. lia.
Qed.
Lemma unserialize_loop faces : Forall machine_face faces -> forall done rest, unserialize_from (length faces) (done ++ concat (map face_bytes faces) ++ rest) (length done) = Ok faces.
Proof.
  induction 1 as [|f faces Hf Hfs IH]; intros done rest; [reflexivity|]. cbn [length map concat unserialize_from]. rewrite <- app_assoc, unserialize_face_ok by exact Hf. cbn [obind fst snd].
  rewrite app_assoc, IH. reflexivity.
Qed.

(** ** C38 *)
(** Any non-empty list of faces, into a vector of any size and content: no byte is written or read
    outside the vector, which has 112 bytes per face afterwards, and reading it back gives every
    coordinate, length, id and node in order. *)
Theorem C38_roundtrip : forall faces buffer, faces <> [] -> Forall machine_face faces ->
  exists buffer', serialize_faces faces buffer = Ok buffer' /\ length buffer' = (112 * length faces)%nat /\
    unserialize_faces (length faces) buffer' = Ok faces.
Proof.
  intros faces buffer HN HM. unfold serialize_faces. set (b := resize buffer (entity_size * length faces)).
  assert (Lb : length b = (112 * length faces)%nat) by (unfold b, resize; rewrite app_length, firstn_length, repeat_length; change entity_size with 112%nat; lia).
  assert (L0 : (0 < length faces)%nat) by (destruct faces; [contradiction|cbn; lia]).
  destruct (Nat.eqb_spec (length b) 0); [lia|]. pose proof (@serialize_loop faces [] b ltac:(lia)) as SL. cbn [app length] in SL. rewrite SL. cbn [obind fst]. eexists. split; [reflexivity|].
  assert (LC : length (concat (map face_bytes faces)) = (108 * length faces)%nat) by (clear; induction faces as [|f l IH]; [reflexivity|]; cbn [map concat length]; rewrite app_length, face_bytes_length, IH; lia).
  assert (LL : length (concat (map face_bytes faces) ++ skipn (108 * length faces) b) = (112 * length faces)%nat) by (rewrite app_length, skipn_length; lia).
  split; [exact LL|]. unfold unserialize_faces. rewrite LL. destruct (Nat.eqb_spec (112 * length faces) 0); [lia|]. apply (@unserialize_loop faces HM []).
Qed.
Print Assumptions C38_roundtrip.
(** At the receiver an entity built by the triangle constructor with default local id is the same
    entity again (for every meaning of the bit patterns). *)
Theorem C38_entity_restored : forall real w gid p1 p2 p3 len n1 n2 l,
  let e := make_triangle gid (-1) p1 p2 p3 len n1 n2 l in
  machine_values real e w -> received_entity real w = e.
Proof.
  intros real w gid p1 p2 p3 len n1 n2 l e (A & B & C & D & E & F & G & H). unfold e, make_triangle in *.
  set (x := Entity TRIANGLE 3 p1 p2 p3 _ _ _ _ len _ _ _ n1 n2 l gid (-1) false) in *.
  assert (K : coord_1 (set_bounding_box x) = p1 /\ coord_2 (set_bounding_box x) = p2 /\ coord_3 (set_bounding_box x) = p3 /\ char_len_ (set_bounding_box x) = len /\ contact_entity_global_id_ (set_bounding_box x) = gid /\
    node_id_for_node_1_ (set_bounding_box x) = n1 /\ node_id_for_node_2_ (set_bounding_box x) = n2 /\ node_ids_for_fictitious_node_ (set_bounding_box x) = l) by (repeat split).
  destruct K as (K1 & K2 & K3 & K4 & K5 & K6 & K7 & K8). rewrite K1 in A. rewrite K2 in B. rewrite K3 in C. rewrite K4 in D. rewrite K5 in E. rewrite K6 in F. rewrite K7 in G. rewrite K8 in H. clear K1 K2 K3 K4 K5 K6 K7 K8.
  unfold received_entity. cbv zeta. f_equal. rewrite <- A, <- B, <- C, <- D, <- E, <- F, <- G, !Nat2Z.id.
  assert (HL : [Z.to_nat (w_fict_1_ w); Z.to_nat (w_fict_2_ w); Z.to_nat (w_fict_3_ w); Z.to_nat (w_fict_4_ w)] = l).
  { change (map Z.to_nat [w_fict_1_ w; w_fict_2_ w; w_fict_3_ w; w_fict_4_ w] = l). rewrite <- H, map_map. rewrite <- (map_id l) at 2. apply map_ext. apply Nat2Z.id. }
  rewrite HL. reflexivity.
Qed.
Print Assumptions C38_entity_restored.
(** The local id does not travel: an entity made with another local id is not restored. *)
Theorem C38_local_id_lost_refuted : exists real w gid lid p1 p2 p3 len n1 n2 l,
  machine_values real (make_triangle gid lid p1 p2 p3 len n1 n2 l) w /\ local_id_ (received_entity real w) <> lid.
Proof.
  exists (fun _ => 0%R), (WF 0 0 0 0 0 0 0 0 0 0 0 0 0 0 0 0 0), 0, 5, vzero, vzero, vzero, 0%R, 0%nat, 0%nat, [0; 0; 0; 0]%nat.
  split; [repeat split|]. change (local_id_ (received_entity (fun _ => 0%R) (WF 0 0 0 0 0 0 0 0 0 0 0 0 0 0 0 0 0))) with (-1). lia.
Qed.
Print Assumptions C38_local_id_lost_refuted.
(** Nothing to send: the address of the first byte of an empty vector is taken. *)
Theorem C38_empty_refuted : forall buffer, serialize_faces [] buffer = UB.
Proof. intros buffer. unfold serialize_faces. cbn [length]. rewrite Nat.mul_0_r. unfold resize. cbn [firstn Nat.sub repeat app length Nat.eqb]. reflexivity. Qed.
Print Assumptions C38_empty_refuted.
Example C38_example : Forall machine_face [WF 1 2 3 4 5 6 7 8 9 (2 ^ 64 - 1) (-5) 0 1 2 3 4 (2 ^ 31 - 1)].
Proof. repeat constructor; cbn; lia. Qed.
