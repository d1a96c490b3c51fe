(* Properties C17 (extremal elements) and C18 (matrix products). *)
From Coq Require Import ZArith List.
From Verif Require Import Common RtArr_Model RtArr_Spec RtArr_Proofs.
Import ListNotations.
Open Scope nat_scope.

(* ---- C17 ---- *)
Theorem C17_complex_min : forall (R : Type) (ltb eqb : R -> R -> bool),
  total_order ltb eqb -> forall a b : cplx R,
  let m := complex_min ltb eqb a b in
  (m = a \/ m = b)
  /\ lex_le ltb (re m, im m) (re a, im a) /\ lex_le ltb (re m, im m) (re b, im b).
Proof. exact @complex_min_ok. Qed.
Print Assumptions C17_complex_min.

Theorem C17_complex_max : forall (R : Type) (ltb eqb : R -> R -> bool),
  total_order ltb eqb -> forall a b : cplx R,
  let m := complex_max ltb eqb a b in
  (m = a \/ m = b)
  /\ lex_le ltb (re a, im a) (re m, im m) /\ lex_le ltb (re b, im b) (re m, im m).
Proof. exact @complex_max_ok. Qed.
Print Assumptions C17_complex_max.

Theorem C17_amax : forall (R : Type) (ltb eqb : R -> R -> bool),
  total_order ltb eqb -> forall arr : list (cplx R), arr <> [] ->
  exists m, f_amax ltb eqb arr = Ret m /\ In m arr
         /\ forall x, In x arr -> lex_le ltb (re x, im x) (re m, im m).
Proof. exact @f_amax_ok. Qed.
Print Assumptions C17_amax.

Theorem C17_amin : forall (R : Type) (ltb eqb : R -> R -> bool),
  total_order ltb eqb -> forall arr : list (cplx R), arr <> [] ->
  exists m, f_amin ltb eqb arr = Ret m /\ In m arr
         /\ forall x, In x arr -> lex_le ltb (re m, im m) (re x, im x).
Proof. exact @f_amin_ok. Qed.
Print Assumptions C17_amin.

Example C17_ex : total_order Z.ltb Z.eqb
  /\ f_amax Z.ltb Z.eqb [Cplx 1 5; Cplx 2 1; Cplx 2 3; Cplx 0 9]%Z = Ret (Cplx 2 3)%Z
  /\ f_amin Z.ltb Z.eqb [Cplx 1 5; Cplx 2 1; Cplx 2 3; Cplx 0 9]%Z = Ret (Cplx 0 9)%Z.
Proof. split; [exact Z_total_order | split; reflexivity]. Qed.

(* ---- C18 ---- *)
(* Entry (i,k) of the result is the dot product of row i of a and column k of
   b; no access outside the arguments happens (the outcome is not Undef). *)
Theorem C18_matmul : forall (A : Type) (zero : A) (add mul : A -> A -> A) n m p a b o,
  is_matrix n m a -> is_matrix m p b -> length o = n * p ->
  c_matmul zero add mul (Span2 n p o) (Span2 n m (concat a)) (Span2 m p (concat b))
  = Ret (Span2 n p (concat
      (map (fun r => map (fun k => dot add mul zero r (column zero b k)) (seq 0 p)) a))).
Proof. exact @matmul_correct. Qed.
Print Assumptions C18_matmul.

Theorem C18_matvecmul : forall (A : Type) (zero : A) (add mul : A -> A -> A) n m a v o,
  is_matrix n m a -> length v = m -> length o = n ->
  c_matvecmul zero add mul (Span1 n o) (Span2 n m (concat a)) (Span1 m v)
  = Ret (Span1 n (map (fun r => dot add mul zero r v) a)).
Proof. exact @matvec_correct. Qed.
Print Assumptions C18_matvecmul.

Theorem C18_vecmatmul : forall (A : Type) (zero : A) (add mul : A -> A -> A) n m v b o,
  is_matrix n m b -> length v = n -> length o = m ->
  c_vecmatmul zero add mul (Span1 m o) (Span1 n v) (Span2 n m (concat b))
  = Ret (Span1 m (map (fun k => dot add mul zero v (column zero b k)) (seq 0 m))).
Proof. exact @vecmat_correct. Qed.
Print Assumptions C18_vecmatmul.

(* Wrong shapes never produce a value. *)
Theorem C18_matmul_mismatch : forall (A : Type) (zero : A) (add mul : A -> A -> A) (out a b : span2 A),
  cols a <> rows b \/ rows a <> rows out \/ cols b <> cols out ->
  c_matmul zero add mul out a b = Undef.
Proof. exact @matmul_mismatch. Qed.
Print Assumptions C18_matmul_mismatch.

Example C18_ex :
  is_matrix 2 3 [[1;2;3];[4;5;6]]%Z /\ is_matrix 3 2 [[1;0];[0;1];[2;2]]%Z /\
  c_matmul 0%Z Z.add Z.mul (Span2 2 2 [9;9;9;9]%Z) (Span2 2 3 [1;2;3;4;5;6]%Z)
    (Span2 3 2 [1;0;0;1;2;2]%Z) = Ret (Span2 2 2 [7;8;16;17]%Z).
Proof.
  repeat split; simpl; try reflexivity; intros r H; repeat destruct H as [<-|H]; try reflexivity; contradiction.
Qed.

Open Scope Z_scope.
Theorem C18_cross_product : forall a1 a2 a3 b1 b2 b3 c, length c = 3%nat ->
  exists c1 c2 c3, f_cross_product [a1;a2;a3] [b1;b2;b3] c = Ret [c1;c2;c3] /\
    forall v1 v2 v3, v1 * c1 + v2 * c2 + v3 * c3 = det3 (v1,v2,v3) (a1,a2,a3) (b1,b2,b3).
Proof. exact cross_ok. Qed.
Print Assumptions C18_cross_product.
