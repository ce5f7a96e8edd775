(** The Baker-Campbell-Hausdorff expansion. *)
From Verif Require Import Base Loops TensorModel TensorSpec TensorProofs.
From Coq Require Import Reals Lra Psatz Setoid Morphisms.
Set Implicit Arguments.
Local Open Scope R_scope.
(* [meq] unfolds to a quantified equality; keep it folded for setoid rewriting *)
(** ** BCH *)
Opaque meq.
Lemma bch_spec junk x y r : let X := full x in let Y := full y in
  meq (full (bch junk x y r))
    (madd (madd (madd (madd (madd X Y)
       (mscale (1 / 2) (commutator X Y)))
       (mscale (1 / 12) (commutator X (commutator X Y))))
       (mscale (1 / 12) (commutator Y (commutator Y X))))
       (mscale (- (1 / 24)) (commutator Y (commutator X (commutator X Y))))).
Proof.
  cbv zeta. unfold bch. rewrite !sum_ff, !mult_aff, !mult_ff.
  set (X := full x). set (Y := full y).
  clearbody X Y. Transparent meq. intros i j Hi Hj. cbv [commutator madd msub mscale mmul Rsum].
  field.
Qed.
