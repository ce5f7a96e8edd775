(** C80, C81: views of memory (y += a * x, zero, copy) and shared handles. *)
From Coq Require Import Reals Lra.
From Verif Require Import Base ViewModel.
Set Implicit Arguments.
Local Open Scope Z_scope.

(** * What views mean *)
(** rows of len1 numbers, one after another: the layout of all fields of the program *)
Definition row_major (v : viewify) : Prop := str0 v = len1 v /\ str1 v = 1 /\ 0 <= len0 v /\ 0 <= len1 v /\ len0 v * len1 v < 2 ^ 31.
Definition entry (v : viewify) (i j : Z) : Prop := 0 <= i < len0 v /\ 0 <= j < len1 v.
(** the memory cell of entry (i, j) and what it holds *)
Definition cell (v : viewify) (i j : Z) : nat * Z := (p_alloc (data v), p_off (data v) + i * str0 v + j * str1 v).
Definition holds (h : heap) (v : viewify) (i j : Z) : option R := h (fst (cell v i j)) (snd (cell v i j)).
Definition in_memory (h : heap) (v : viewify) : Prop := forall i j, entry v i j -> holds h v i j <> None.
(** x does not begin before y and reach into it *)
Definition no_late_overlap (x y : viewify) : Prop :=
  p_alloc (data x) <> p_alloc (data y) \/ p_off (data y) <= p_off (data x) \/ p_off (data x) + len0 y * len1 y <= p_off (data y).
(** entry (i, j) of y becomes [f] of its old value and the old value of entry (i, j) of x; all other
    memory keeps its contents *)
Definition entrywise (f : R -> R -> R) (x y : viewify) (h h' : heap) : Prop :=
  (forall i j, entry y i j -> exists u w, holds h y i j = Some u /\ holds h x i j = Some w /\ holds h' y i j = Some (f u w)) /\
  (forall a z, (forall i j, entry y i j -> cell y i j <> (a, z)) -> h' a z = h a z).

(** * lemmas *)
Definition body (d s : ptr) (f : R -> R -> R) : Z -> heap -> outcome heap :=
  fun ii h => do u <- load h d ii; do w <- load h s ii; store h d ii (f u w).
Definition known (h : heap) (p : ptr) (k : Z) : Prop := h (p_alloc p) (p_off p + k) <> None.
Lemma load_known h p k : known h p k <-> exists x, load h p k = Ok x.
Proof. unfold known, load. destruct (h (p_alloc p) (p_off p + k)) as [x|]; split; try congruence; eauto. intros (x & C). discriminate. Qed.
Definition target (f : R -> R -> R) (d s : ptr) (i : Z) (n : nat) (h : heap) (a : nat) (z : Z) : option R :=
  if Nat.eqb a (p_alloc d) && (p_off d + i <=? z) && (z <? p_off d + i + Z.of_nat n) then
    match h a z, h (p_alloc s) (p_off s + (z - p_off d)) with Some u, Some w => Some (f u w) | _, _ => None end
  else h a z.
Lemma update_known h a z x b w : update h a z x b w <> None <-> h b w <> None \/ (b = a /\ w = z).
Proof.
  unfold update. destruct (Nat.eqb_spec b a), (Z.eqb_spec w z); cbn [andb]; subst; split; intros H; try congruence; auto.
  all: try (destruct H as [H|[H1 H2]]; congruence). all: right; auto.
Qed.
Lemma loop_ok f d s : forall n i h,
  (forall k, i <= k < i + Z.of_nat n -> known h d k /\ known h s k) ->
  (p_alloc s <> p_alloc d \/ p_off d <= p_off s \/ p_off s + i + Z.of_nat n <= p_off d + i) ->
  exists h', for_up n i (body d s f) h = Ok h' /\ forall a z, h' a z = target f d s i n h a z.
Proof.
  induction n as [|n IH]; intros i h K Hs.
  - exists h. split; auto. intros a z. unfold target. destruct (Nat.eqb a (p_alloc d)) eqn:Ea; cbn [andb]; auto.
    destruct (p_off d + i <=? z) eqn:E1; cbn [andb]; auto. destruct (z <? p_off d + i + Z.of_nat 0) eqn:E2; auto. lia.
  - cbn [for_up]. destruct (K i) as (K1 & K2); [lia|].
    unfold body at 1, load at 1 2, store. unfold known in K1, K2.
    destruct (h (p_alloc d) (p_off d + i)) as [u|] eqn:Eu; [|congruence]. cbn [obind].
    destruct (h (p_alloc s) (p_off s + i)) as [w|] eqn:Ew; [|congruence]. cbn [obind].
    destruct (IH (i + 1) (update h (p_alloc d) (p_off d + i) (f u w))) as (h' & E & T).
    + intros k Hk. unfold known. rewrite !update_known. destruct (K k) as (A & B); [lia|]. auto.
    + lia.
    + exists h'. split; [exact E|]. intros a z. rewrite T. unfold target, update.
      destruct (Nat.eqb_spec a (p_alloc d)) as [->|Na]; cbn [andb].
      2:{ reflexivity. }
      destruct (Z.eqb_spec z (p_off d + i)) as [->|Nz].
      * replace (p_off d + (i + 1) <=? p_off d + i) with false by lia. cbn [andb].
        replace (p_off d + i <=? p_off d + i) with true by lia. replace (p_off d + i <? p_off d + i + Z.of_nat (S n)) with true by lia. cbn [andb].
        rewrite Eu. replace (p_off s + (p_off d + i - p_off d)) with (p_off s + i) by lia. now rewrite Ew.
      * destruct (p_off d + (i + 1) <=? z) eqn:E1; cbn [andb].
        -- replace (p_off d + i <=? z) with true by lia. cbn [andb].
           replace (z <? p_off d + i + Z.of_nat (S n)) with (z <? p_off d + (i + 1) + Z.of_nat n) by lia.
           destruct (z <? p_off d + (i + 1) + Z.of_nat n) eqn:E2; auto.
           destruct (Nat.eqb_spec (p_alloc s) (p_alloc d)) as [Ea|Ea]; cbn [andb]; auto.
           destruct (Z.eqb_spec (p_off s + (z - p_off d)) (p_off d + i)) as [C|C]; auto. lia.
        -- destruct (p_off d + i <=? z) eqn:E3; cbn [andb]; auto. lia.
Qed.
Lemma loop_known f d s : forall n i h h', for_up n i (body d s f) h = Ok h' -> forall k, i <= k < i + Z.of_nat n -> known h d k /\ known h s k.
Proof.
  induction n as [|n IH]; intros i h h' E k Hk; [lia|]. cbn [for_up] in E.
  unfold body at 1, load at 1 2, store in E.
  destruct (h (p_alloc d) (p_off d + i)) as [u|] eqn:Eu; [|discriminate]. cbn [obind] in E.
  destruct (h (p_alloc s) (p_off s + i)) as [w|] eqn:Ew; [|discriminate]. cbn [obind] in E.
  destruct (Z.eq_dec k i) as [->|N].
  - unfold known. rewrite Eu, Ew. split; discriminate.
  - specialize (IH _ _ _ E k ltac:(lia)). unfold known in *. rewrite !update_known in IH.
    destruct IH as ([A|(A1 & A2)] & [B|(B1 & B2)]); split; auto; try lia; rewrite B1, B2, Eu; discriminate.
Qed.
Lemma loop_ok_known f d s : forall n i h, (forall k, i <= k < i + Z.of_nat n -> known h d k /\ known h s k) -> exists h', for_up n i (body d s f) h = Ok h'.
Proof.
  induction n as [|n IH]; intros i h K; [exists h; reflexivity|]. cbn [for_up].
  destruct (K i) as (K1 & K2); [lia|]. unfold body at 1, load at 1 2, store. unfold known in K1, K2.
  destruct (h (p_alloc d) (p_off d + i)) as [u|] eqn:Eu; [|congruence]. cbn [obind].
  destruct (h (p_alloc s) (p_off s + i)) as [w|] eqn:Ew; [|congruence]. cbn [obind].
  apply IH. intros k Hk. unfold known. rewrite !update_known. destruct (K k) as (A & B); [lia|]. auto.
Qed.
Lemma for_up_ext b1 b2 : (forall i h, b1 i h = b2 i h) -> forall n i h, for_up n i b1 h = for_up n i b2 h.
Proof. intros E. induction n as [|n IH]; intros i h; auto. cbn [for_up]. rewrite E. destruct (b2 i h); cbn [obind]; auto. Qed.

Lemma zero_body v h : zero v h = do n <- int_mul (str0 v) (len0 v); for_up (Z.to_nat n) 0 (body (data v) (data v) (fun _ _ => 0%R)) h.
Proof.
  unfold zero. destruct (int_mul (str0 v) (len0 v)) as [n| | |]; cbn [obind]; auto. apply for_up_ext. intros i g.
  unfold body, load, store. destruct (g _ _); reflexivity.
Qed.
Lemma copy_body v r h : copy v r h = do n <- int_mul (str0 v) (len0 v); for_up (Z.to_nat n) 0 (body (data v) (data r) (fun _ x => x)) h.
Proof.
  unfold copy. destruct (int_mul (str0 v) (len0 v)) as [n| | |]; cbn [obind]; auto. apply for_up_ext. intros i g.
  unfold body, load, store. destruct (g (p_alloc (data v)) _), (g (p_alloc (data r)) _); reflexivity.
Qed.
Lemma assign_body A alpha dc rc y h : assign_to A alpha dc rc y h =
  do n <- int_mul (len0 y) (str0 y); for_up (Z.to_nat n) 0 (body (data y) (data A) (fun u w => dc * u + (alpha * rc) * w)%R) h.
Proof.
  unfold assign_to. destruct (int_mul (len0 y) (str0 y)) as [n| | |]; cbn [obind]; auto.
  destruct (Req_EM_T dc 1) as [->|N1]; [|destruct (Req_EM_T dc 0) as [->|N0]]; apply for_up_ext; intros i g;
    unfold body, load, store; destruct (g (p_alloc (data y)) _), (g (p_alloc (data A)) _); cbn [obind]; auto; (match goal with |- Ok (update _ _ _ ?u) = Ok (update _ _ _ ?w) => assert (Ex : u = w) by ring; exact (f_equal (fun t => Ok (update g (p_alloc (data y)) (p_off (data y) + i) t)) Ex) end).
Qed.

(** every index of the touched range is an entry of a row-major view *)
Lemma range_entry v k : row_major v -> 0 <= k < len0 v * len1 v -> exists i j, entry v i j /\ k = i * str0 v + j * str1 v.
Proof.
  intros (E0 & E1 & L0 & L1 & _) Hk. assert (0 < len1 v) by nia.
  exists (k / len1 v), (k mod len1 v). pose proof (Z.div_mod k (len1 v) ltac:(lia)). pose proof (Z.mod_pos_bound k (len1 v) ltac:(lia)).
  split; [|rewrite E0, E1; lia]. split; [|lia]. split; [apply Z.div_pos; lia|apply Z.div_lt_upper_bound; nia].
Qed.
Lemma entry_range v i j : row_major v -> entry v i j -> 0 <= i * str0 v + j * str1 v < len0 v * len1 v.
Proof. intros (E0 & E1 & _) (Hi & Hj). rewrite E0, E1. nia. Qed.
Lemma int_ok v : row_major v -> int_mul (len0 v) (str0 v) = Ok (len0 v * len1 v) /\ int_mul (str0 v) (len0 v) = Ok (len0 v * len1 v).
Proof.
  intros (E0 & _ & L0 & L1 & L). unfold int_mul. rewrite E0, (Z.mul_comm (len1 v)). pose proof (Z.mul_nonneg_nonneg _ _ L0 L1).
  replace (- 2 ^ 31 <=? len0 v * len1 v) with true by lia. replace (len0 v * len1 v <? 2 ^ 31) with true by lia. auto.
Qed.
Lemma entrywise_loop f x y h : row_major x -> row_major y -> len0 x = len0 y -> len1 x = len1 y -> in_memory h x -> in_memory h y -> no_late_overlap x y ->
  exists h', for_up (Z.to_nat (len0 y * len1 y)) 0 (body (data y) (data x) f) h = Ok h' /\ entrywise f x y h h'.
Proof.
  intros Rx Ry E0 E1 Mx My Ho. assert (L : 0 <= len0 y * len1 y) by (destruct Ry as (_ & _ & ? & ? & _); nia).
  destruct (@loop_ok f (data y) (data x) (Z.to_nat (len0 y * len1 y)) 0 h) as (h' & E & T).
  - intros k Hk. rewrite Z2Nat.id in Hk by exact L. split; unfold known.
    + destruct (@range_entry y k Ry ltac:(lia)) as (i & j & He & ->). specialize (My i j He). unfold holds, cell in My. cbn [fst snd] in My. now rewrite Z.add_assoc.
    + destruct (@range_entry x k Rx ltac:(rewrite E0, E1; lia)) as (i & j & He & ->). specialize (Mx i j He). unfold holds, cell in Mx. cbn [fst snd] in Mx. now rewrite Z.add_assoc.
  - unfold no_late_overlap in Ho. rewrite Z2Nat.id by exact L. lia.
  - exists h'. split; auto. split.
    + intros i j He. specialize (My i j He). assert (Hx : entry x i j) by (unfold entry in *; rewrite E0, E1; auto). specialize (Mx i j Hx).
      destruct (holds h y i j) as [u|] eqn:Eu; [|congruence]. destruct (holds h x i j) as [w|] eqn:Ew; [|congruence].
      exists u, w. split; auto. split; auto. unfold holds, cell in *. cbn [fst snd] in *. rewrite T. unfold target.
      pose proof (@entry_range y i j Ry He) as Hr. rewrite Nat.eqb_refl. cbn [andb]. rewrite Z2Nat.id by exact L.
      replace (p_off (data y) + 0 <=? p_off (data y) + i * str0 y + j * str1 y) with true by lia.
      replace (p_off (data y) + i * str0 y + j * str1 y <? p_off (data y) + 0 + len0 y * len1 y) with true by lia. cbn [andb]. rewrite Eu.
      replace (p_off (data x) + (p_off (data y) + i * str0 y + j * str1 y - p_off (data y))) with (p_off (data x) + i * str0 x + j * str1 x).
      2:{ destruct Rx as (-> & -> & _), Ry as (-> & -> & _). rewrite E1. lia. }
      now rewrite Ew.
    + intros a z Hn. rewrite T. unfold target. destruct (Nat.eqb_spec a (p_alloc (data y))) as [->|N]; cbn [andb]; auto.
      destruct (p_off (data y) + 0 <=? z) eqn:F1; cbn [andb]; auto. rewrite Z2Nat.id by exact L.
      destruct (z <? p_off (data y) + 0 + len0 y * len1 y) eqn:F2; auto. exfalso.
      destruct (@range_entry y (z - p_off (data y)) Ry ltac:(lia)) as (i & j & He & Ek). apply (Hn i j He). unfold cell. f_equal. lia.
Qed.
Lemma no_late_overlap_self v : no_late_overlap v v.
Proof. right. left. lia. Qed.

(** * C80 *)
(** y += a * x: every entry of y grows by a times the entry of x, nothing else changes.  x may be y,
    or overlap y from behind. *)
Theorem C80_plus_assign :
  forall h x y a, row_major x -> row_major y -> len0 x = len0 y -> len1 x = len1 y -> in_memory h x -> in_memory h y -> no_late_overlap x y ->
  exists h', plus_assign y a x h = Ok h' /\ entrywise (fun u w => u + a * w)%R x y h h'.
Proof.
  intros h x y a Rx Ry E0 E1 Mx My Ho. destruct (@entrywise_loop (fun u w => 1 * u + a * 1 * w)%R x y h Rx Ry E0 E1 Mx My Ho) as (h' & E & S1 & S2).
  exists h'. unfold plus_assign. rewrite assign_body, (proj1 (int_ok Ry)). cbn [obind]. split; [exact E|]. split; auto.
  intros i j He. destruct (S1 i j He) as (u & w & Hu & Hw & H). exists u, w. split; auto. split; auto. rewrite H. f_equal. ring.
Qed.
Print Assumptions C80_plus_assign.

(** The general form y = c * y + d * (a * x), for all coefficients. *)
Theorem C80_assign_to :
  forall h x y a c d, row_major x -> row_major y -> len0 x = len0 y -> len1 x = len1 y -> in_memory h x -> in_memory h y -> no_late_overlap x y ->
  exists h', assign_to x a c d y h = Ok h' /\ entrywise (fun u w => c * u + d * (a * w))%R x y h h'.
Proof.
  intros h x y a c d Rx Ry E0 E1 Mx My Ho. destruct (@entrywise_loop (fun u w => c * u + a * d * w)%R x y h Rx Ry E0 E1 Mx My Ho) as (h' & E & S1 & S2).
  exists h'. rewrite assign_body, (proj1 (int_ok Ry)). cbn [obind]. split; [exact E|]. split; auto.
  intros i j He. destruct (S1 i j He) as (u & w & Hu & Hw & H). exists u, w. split; auto. split; auto. rewrite H. f_equal. ring.
Qed.
Print Assumptions C80_assign_to.

(** zero and copy; an entry is read and written through operator() at its own cell. *)
Theorem C80_zero_copy :
  forall h x y, row_major x -> row_major y -> len0 x = len0 y -> len1 x = len1 y -> in_memory h x -> in_memory h y -> no_late_overlap x y ->
  (exists h', zero y h = Ok h' /\ entrywise (fun _ _ => 0)%R y y h h') /\
  (exists h', copy y x h = Ok h' /\ entrywise (fun _ w => w) x y h h').
Proof.
  intros h x y Rx Ry E0 E1 Mx My Ho. rewrite zero_body, copy_body, (proj2 (int_ok Ry)). cbn [obind]. split.
  - exact (@entrywise_loop (fun _ _ => 0)%R y y h Ry Ry eq_refl eq_refl My My (no_late_overlap_self y)).
  - exact (@entrywise_loop (fun _ w => w) x y h Rx Ry E0 E1 Mx My Ho).
Qed.
Print Assumptions C80_zero_copy.

Theorem C80_entries :
  forall h v, row_major v -> in_memory h v ->
  (forall i j i' j', entry v i j -> entry v i' j' -> cell v i j = cell v i' j' -> i = i' /\ j = j') /\
  (forall i j, entry v i j -> exists u, get2 v i j h = Ok u /\ holds h v i j = Some u) /\
  (forall i j u, entry v i j -> exists h', set2 v i j u h = Ok h' /\ holds h' v i j = Some u /\ forall a z, cell v i j <> (a, z) -> h' a z = h a z).
Proof.
  intros h v Rv Mv. split; [|split].
  - intros i j i' j' (Hi & Hj) (Hi' & Hj') E. unfold cell in E. injection E as E. destruct Rv as (E0 & E1 & _). rewrite E0, E1 in E.
    assert (i = i') by nia. subst i'. split; auto. lia.
  - intros i j He. specialize (Mv i j He). unfold holds, cell, get2, load in *. cbn [fst snd] in *. rewrite Z.add_assoc.
    destruct (h _ _) as [u|]; [eauto|congruence].
  - intros i j u He. specialize (Mv i j He). unfold holds, cell, set2, store in *. cbn [fst snd] in *. rewrite !Z.add_assoc.
    destruct (h (p_alloc (data v)) (p_off (data v) + i * str0 v + j * str1 v)) as [w|] eqn:E; [|congruence]. eexists. split; [reflexivity|]. unfold update. split.
    + now rewrite Nat.eqb_refl, Z.eqb_refl.
    + intros a z N. destruct (Nat.eqb_spec a (p_alloc (data v))) as [->|]; cbn [andb]; auto. destruct (Z.eqb_spec z (p_off (data v) + i * str0 v + j * str1 v)) as [->|]; auto. congruence.
Qed.
Print Assumptions C80_entries.

(** For any lengths and strides: y += a * x works exactly if the product of the first length and
    stride of y fits an int and that many numbers from the start of both are in memory; the lengths of
    x do not matter.  It never throws. *)
Theorem C80_when :
  forall h x y a,
  ((exists h', plus_assign y a x h = Ok h') <->
    - 2 ^ 31 <= len0 y * str0 y < 2 ^ 31 /\
    forall k, 0 <= k < len0 y * str0 y -> h (p_alloc (data y)) (p_off (data y) + k) <> None /\ h (p_alloc (data x)) (p_off (data x) + k) <> None) /\
  (plus_assign y a x h = UB \/ exists h', plus_assign y a x h = Ok h').
Proof.
  intros h x y a. unfold plus_assign. rewrite assign_body. unfold int_mul.
  destruct (- 2 ^ 31 <=? len0 y * str0 y) eqn:B1; cbn [andb]; [destruct (len0 y * str0 y <? 2 ^ 31) eqn:B2|]; cbn [obind].
  2,3: split; [split; [intros (h' & C); discriminate|lia]|now left].
  set (f := (fun u w => 1 * u + a * 1 * w)%R). set (n := Z.to_nat (len0 y * str0 y)). split.
  - split.
    + intros (h' & E). split; [lia|]. intros k Hk. exact (@loop_known f (data y) (data x) n 0 h h' E k ltac:(subst n; lia)).
    + intros (_ & K). apply loop_ok_known. intros k Hk. apply K. subst n. lia.
  - clearbody n f. clear B1 B2. generalize 0. revert h. induction n as [|n IH]; intros h i; [right; exists h; reflexivity|]. cbn [for_up].
    assert (B : body (data y) (data x) f i h = UB \/ exists g, body (data y) (data x) f i h = Ok g).
    { unfold body, load, store. destruct (h (p_alloc (data y)) (p_off (data y) + i)); cbn [obind]; [|now left].
      destruct (h (p_alloc (data x)) (p_off (data x) + i)); cbn [obind]; [|now left]. right. eexists. reflexivity. }
    destruct B as [->|(g & ->)]; cbn [obind]; [now left|]. apply IH.
Qed.
Print Assumptions C80_when.

(** Views of other layouts are not summed entry by entry: with columns of len0 numbers, only the first
    column of y changes. *)
Theorem C80_columns_refuted :
  forall h h' x y a, str0 y = 1 -> str1 y = len0 y -> 0 <= len0 y -> p_alloc (data x) <> p_alloc (data y) ->
  plus_assign y a x h = Ok h' ->
  forall i j, entry y i j -> 1 <= j -> holds h' y i j = holds h y i j.
Proof.
  intros h h' x y a E0 E1 L Hd E i j (Hi & Hj) H1. unfold plus_assign in E. rewrite assign_body in E. unfold int_mul in E. rewrite E0, Z.mul_1_r in E.
  destruct ((- 2 ^ 31 <=? len0 y) && (len0 y <? 2 ^ 31)); cbn [obind] in E; [|discriminate].
  set (f := (fun u w => 1 * u + a * 1 * w)%R) in E.
  destruct (@loop_ok f (data y) (data x) (Z.to_nat (len0 y)) 0 h (@loop_known f _ _ _ 0 h h' E)) as (g & Eg & T); [auto|].
  rewrite E in Eg. injection Eg as <-. unfold holds, cell. cbn [fst snd]. rewrite T. unfold target. rewrite Nat.eqb_refl. cbn [andb].
  rewrite Z2Nat.id by exact L.
  replace (p_off (data y) + i * str0 y + j * str1 y <? p_off (data y) + 0 + len0 y) with false by (rewrite E0, E1; nia). now rewrite andb_false_r.
Qed.
Print Assumptions C80_columns_refuted.

(** Rows with room between them: zeroing the view also zeroes the room, and needs the room behind the
    last row to be there. *)
Theorem C80_padding_refuted :
  forall h h' v, 0 < len0 v -> 0 <= len1 v < str0 v -> str1 v = 1 -> zero v h = Ok h' ->
  forall i z, 0 <= i < len0 v -> len1 v <= z < str0 v ->
  h (p_alloc (data v)) (p_off (data v) + i * str0 v + z) <> None /\ h' (p_alloc (data v)) (p_off (data v) + i * str0 v + z) = Some 0%R.
Proof.
  intros h h' v L0 L1 E1 E i z Hi Hz. rewrite zero_body in E. unfold int_mul in E.
  destruct ((- 2 ^ 31 <=? str0 v * len0 v) && (str0 v * len0 v <? 2 ^ 31)); cbn [obind] in E; [|discriminate].
  set (f := (fun _ _ => 0%R) : R -> R -> R) in E.
  pose proof (@loop_known f _ _ _ 0 h h' E) as K. assert (0 <= i * str0 v + z < str0 v * len0 v) by nia.
  destruct (@loop_ok f (data v) (data v) (Z.to_nat (str0 v * len0 v)) 0 h K) as (g & Eg & T); [lia|].
  rewrite E in Eg. injection Eg as <-. destruct (K (i * str0 v + z) ltac:(lia)) as (K1 & _). unfold known in K1. rewrite Z.add_assoc in K1. split; auto.
  rewrite T. unfold target. rewrite Nat.eqb_refl. cbn [andb]. rewrite Z2Nat.id by nia.
  replace (p_off (data v) + 0 <=? p_off (data v) + i * str0 v + z) with true by lia.
  replace (p_off (data v) + i * str0 v + z <? p_off (data v) + 0 + str0 v * len0 v) with true by lia. cbn [andb].
  replace (p_off (data v) + (p_off (data v) + i * str0 v + z - p_off (data v))) with (p_off (data v) + i * str0 v + z) by lia.
  destruct (h (p_alloc (data v)) (p_off (data v) + i * str0 v + z)); [reflexivity|congruence].
Qed.
Print Assumptions C80_padding_refuted.

(** If x begins before y and reaches into it, later entries use values that were already changed. *)
Theorem C80_overlap_refuted :
  let h : heap := fun a z => if Nat.eqb a 0 && (0 <=? z) && (z <? 3) then Some 1%R else None in
  let x := Viewify (Ptr 0 0) 2 1 1 1 in
  let y := Viewify (Ptr 0 1) 2 1 1 1 in
  row_major x /\ row_major y /\ in_memory h x /\ in_memory h y /\
  exists h', plus_assign y 1 x h = Ok h' /\ ~ entrywise (fun u w => u + 1 * w)%R x y h h'.
Proof.
  intros h x y. assert (M : forall v k, p_alloc (data v) = 0%nat -> str0 v = 1 -> str1 v = 1 -> len0 v = 2 -> len1 v = 1 -> 0 <= p_off (data v) <= 1 -> k = v -> in_memory h k).
  { intros v k Ea S0 S1 L0 L1 Ho -> i j (Hi & Hj). unfold holds, cell, h. cbn [fst snd]. rewrite Ea, S0, S1. rewrite L0 in Hi. rewrite L1 in Hj. cbn [Nat.eqb andb].
    replace (0 <=? p_off (data v) + i * 1 + j * 1) with true by lia. replace (p_off (data v) + i * 1 + j * 1 <? 3) with true by lia. cbn [andb]. discriminate. }
  split; [unfold row_major, x; cbn; lia|]. split; [unfold row_major, y; cbn; lia|].
  split; [apply (M x x); cbn; auto; lia|]. split; [apply (M y y); cbn; auto; lia|].
  eexists. split.
  - unfold plus_assign. rewrite assign_body. unfold int_mul. cbn. reflexivity.
  - intros (S & _). destruct (S 1 0) as (u & w & Hu & Hw & H); [unfold entry; cbn; lia|].
    unfold holds, cell, h, update in *. cbn in *. injection Hu as <-. injection Hw as <-. injection H as H. lra.
Qed.
Print Assumptions C80_overlap_refuted.

(** A case: two nodes with two components, y += 2 x. *)
Example C80_example :
  let h : heap := fun a z => if (0 <=? z) && (z <? 4) then Some (IZR z + 10 * INR a)%R else None in
  let x := Viewify (Ptr 1 0) 2 2 2 1 in
  let y := Viewify (Ptr 0 0) 2 2 2 1 in
  row_major x /\ row_major y /\ in_memory h x /\ in_memory h y /\ no_late_overlap x y /\
  exists h', plus_assign y 2 x h = Ok h' /\ holds h' y 1 1 = Some (3 + 10 * 0 + 2 * (3 + 10 * 1))%R.
Proof.
  intros h x y. assert (Mx : in_memory h x). { intros i j (Hi & Hj). unfold holds, cell, h, x in *. cbn in *. replace (0 <=? i * 2 + j * 1) with true by lia. replace (i * 2 + j * 1 <? 4) with true by lia. discriminate. }
  assert (My : in_memory h y). { intros i j (Hi & Hj). unfold holds, cell, h, y in *. cbn in *. replace (0 <=? i * 2 + j * 1) with true by lia. replace (i * 2 + j * 1 <? 4) with true by lia. discriminate. }
  assert (Rx : row_major x) by (unfold row_major, x; cbn; lia). assert (Ry : row_major y) by (unfold row_major, y; cbn; lia).
  assert (Ho : no_late_overlap x y) by (left; cbn; lia).
  split; auto. split; auto. split; auto. split; auto. split; auto.
  destruct (@C80_plus_assign h x y 2%R Rx Ry eq_refl eq_refl Mx My Ho) as (h' & E & S & _). exists h'. split; auto.
  destruct (S 1 1) as (u & w & Hu & Hw & H); [unfold entry; cbn; lia|]. rewrite H. unfold holds, cell, h in Hu, Hw. cbn in Hu, Hw. injection Hu as <-. injection Hw as <-. reflexivity.
Qed.
