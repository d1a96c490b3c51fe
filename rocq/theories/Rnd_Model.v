(* Random integers in Fortran: np.random.randint.
   Sources: pyccel/codegen/printing/fcode.py 2160-2187 (NumpyRand, NumpyRandint), pyccel/ast/numpyext.py 1744-1762.
   Simplifications: double precision; make_simplified of products by 0 and 1 and sums with 0 is left out, which does
   not change a value; the difference of the bounds does not overflow. *)
From Coq Require Import ZArith.
From Verif Require Import Math_Model Root_Model Fdiv_Model.
Open Scope Z_scope.

(* random_number: a multiple k / 2 ^ 53 with 0 <= k < 2 ^ 53, the numbers gfortran gives *)
Definition random (k : Z) : double := Fin (mkf k (-53)).
(* an integer as an operand of a real operation *)
Definition real (n : Z) : double := ieee n 0.
Definition plus (x y : double) : double :=
  match x, y with Fin x, Fin y => dadd x y | _, _ => Other end.
(* numpyext.py 1748-1750: a single argument is the upper bound *)
Definition bounds (a : Z) (b : option Z) : option Z * Z :=
  match b with None => (None, a) | Some h => (Some a, h) end.
(* fcode.py 2174-2184: high * rand or (high - low) * rand + low *)
Definition rand_float (low : option Z) (high k : Z) : double :=
  match low with
  | None => dmul (real high) (random k)
  | Some l => plus (dmul (real (high - l)) (random k)) (real l)
  end.
(* fcode.py 2187: floor *)
Definition randint (a : Z) (b : option Z) (k : Z) : option Z :=
  let '(low, high) := bounds a b in
  match rand_float low high k with Fin x => Some (ffloor x) | Other => None end.
