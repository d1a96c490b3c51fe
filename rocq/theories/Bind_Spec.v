(** What the wrapper does when it is called from C. *)

From Coq Require Import List Bool Arith ZArith.
From Verif Require Import Bind_Model.
Import ListNotations.

(** What the C caller passes for each parameter: nothing ([None] in Python,
    a null pointer) or a value. *)
Definition passed : Type := nat -> option Z.

Inductive outcome : Type :=
  | Received (l : list (option Z))
      (* the Fortran function ran; for each of its dummy arguments, the value
         or absent *)
  | Null_dereferenced
  | Undefined_pointer   (* a Fortran pointer used before c_f_pointer *)
  | Invalid_call        (* a dummy without argument which is not optional,
                           or a keyword which is no dummy *)
  | Not_generated.

(** The value of an argument of the call. *)
Inductive got : Type := GVal (z : Z) | GErr (o : outcome).

Definition eval (ps : list param) (env : passed) (setup : list nat) (v : value) : got :=
  match v with
  | VLit z => GVal z
  | VNil => GErr Invalid_call
  | VLocal n =>
      match find (fun p => Nat.eqb n (pname p)) ps with
      | None => GErr Invalid_call
      | Some p =>
          if optional p && negb (existsb (Nat.eqb n) setup)
          then GErr Undefined_pointer
          else match env n with
               | Some z => GVal z
               | None => GErr Null_dereferenced
               end
      end
  end.

(** Fortran's association of the dummies with the keywords. *)
Fixpoint associate (all : list param) (env : passed) (setup : list nat)
  (args : list carg) (ps : list param) : outcome :=
  match ps with
  | [] => Received []
  | p :: ps' =>
      match find (fun a => Nat.eqb (pname p) (fst a)) args with
      | Some a =>
          match eval all env setup (snd a) with
          | GErr o => o
          | GVal z =>
              match associate all env setup args ps' with
              | Received l => Received (Some z :: l)
              | o => o
              end
          end
      | None =>
          if optional p then
            match associate all env setup args ps' with
            | Received l => Received (None :: l)
            | o => o
            end
          else Invalid_call
      end
  end.

Definition keywords_ok (ps : list param) (args : list carg) : bool :=
  forallb (fun a => existsb (fun p => Nat.eqb (fst a) (pname p)) ps) args.

(** The run of a body: [ps] are the dummies of the Fortran function. *)
Fixpoint run (ps : list param) (env : passed) (b : body) : outcome :=
  match b with
  | Guard n t e =>
      match env n with Some _ => run ps env t | None => run ps env e end
  | Call setup recv args =>
      match recv with
      | None =>
          if keywords_ok ps args then associate ps env setup args ps else Invalid_call
      | Some v =>
          match ps with
          | [] => Invalid_call
          | _ :: ps' =>
              match eval ps env setup v with
              | GErr o => o
              | GVal z =>
                  if keywords_ok ps' args then
                    match associate ps env setup args ps' with
                    | Received l => Received (Some z :: l)
                    | o => o
                    end
                  else Invalid_call
              end
          end
      end
  | Fatal | Crash => Not_generated
  end.

(** The calls in the text, and whether the generation failed somewhere. *)
Fixpoint calls (b : body) : nat :=
  match b with Guard _ t e => calls t + calls e | Call _ _ _ => 1 | _ => 0 end.

Fixpoint fails (b : body) : bool :=
  match b with Guard _ t e => fails t || fails e | Call _ _ _ => false | _ => true end.

(** The signatures pyccel accepts: distinct names; a method has a first
    argument which is not optional. *)
Definition signature (bound : bool) (ps : list param) : Prop :=
  NoDup (map pname ps) /\
  (bound = true -> exists p ps', ps = p :: ps' /\ optional p = false).

(** The C caller passes every argument which is not optional. *)
Definition complete (ps : list param) (env : passed) : Prop :=
  forall p, In p ps -> optional p = false -> env (pname p) <> None.

(** Two signatures of the same Python function: the same names and defaults. *)
Definition same_function (ps qs : list param) : Prop :=
  map (fun p => (pname p, pdef p)) ps = map (fun p => (pname p, pdef p)) qs.
