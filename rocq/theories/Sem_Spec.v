(* The values of integer and boolean expressions in Python, C and Fortran, and the
   order in which the function calls in them happen. *)
From Coq Require Import List Bool ZArith String Permutation.
From Verif Require Import Common RtInt_Model Expr_Model Expr_Spec Sem_Model.
Import ListNotations.
Open Scope string_scope.
Open Scope Z_scope.

(* Atoms are variables, literals and function calls: their values (True is 1, False is
   0), their types, and which of them are calls, whose evaluation can be observed. *)
Record env := mkEnv { val : string -> Z; kind : string -> ptype; eff : string -> bool }.
Definition events (r : env) (a : string) : list string := if eff r a then [a] else [].
Definition env_ok (r : env) : Prop :=
  (forall a, kind r a = TBool -> val r a = 0 \/ val r a = 1) /\
  (forall a, kind r a = TInt -> in_range 64 (val r a)) /\
  (kind r "0" = TInt /\ val r "0" = 0 /\ eff r "0" = false) /\
  (kind r "1" = TInt /\ val r "1" = 1 /\ eff r "1" = false).

(* ---- Python ---- *)
Definition py_un (o : uop) (v : Z) : Z :=
  match o with Plus => v | Minus => - v | Not => b2z (v =? 0) | Inv => Z.lnot v end.
(* None: an exception *)
Definition py_bin (o : bop) (a b : Z) : option Z :=
  match o with
  | Add => Some (a + b) | Sub => Some (a - b) | Mul => Some (a * b)
  | FloorDiv => if b =? 0 then None else Some (a / b)
  | Mod => if b =? 0 then None else Some (a mod b)
  | LSh => if b <? 0 then None else Some (Z.shiftl a b)
  | RSh => if b <? 0 then None else Some (Z.shiftr a b)
  | BXor => Some (Z.lxor a b) | BOr => Some (Z.lor a b) | BAnd => Some (Z.land a b)
  | Eq | Is => Some (b2z (a =? b)) | Ne | IsNot => Some (b2z (negb (a =? b)))
  | Lt => Some (b2z (a <? b)) | Le => Some (b2z (a <=? b))
  | Gt => Some (b2z (b <? a)) | Ge => Some (b2z (b <=? a))
  | Pow | Div | InOp | And | Or => None
  end.
(* How an expression is evaluated.  Python: exactly, and only the operands of and, or and
   the conditional expression that are needed.  With `check`, an expression is
   given up (None) as soon as a result does not fit its width, a count of a shift
   is not less than the width, a negative number is shifted left, or the least integer is divided by -1.
   With `eager`, all operands are evaluated. *)
Record mode := mkMode { check : bool; width : se -> Z; eager : bool }.
Definition un_ok (m : mode) (e : se) (o : uop) (v : Z) : bool :=
  match o with Minus => negb (check m) || in_rangeb (width m e) v | _ => true end.
Definition bin_ok (m : mode) (e : se) (o : bop) (a b v : Z) : bool :=
  negb (check m) ||
  match o with
  | Add | Sub | Mul | FloorDiv => in_rangeb (width m e) v
  | Mod => negb ((a =? int_min 64) && (b =? -1))
  | LSh => (0 <=? a) && (b <? width m e) && in_rangeb (width m e) v
  | RSh => b <? width m e
  | _ => true
  end.
(* The value, the value of the last operand (for chains of comparisons), the calls in
   the order in which they are made.  Language Reference 6.10, 6.11, 6.13. *)
Fixpoint pev (m : mode) (r : env) (e : se) : option (Z * Z * list string) :=
  match e with
  | SAt a _ => Some (val r a, val r a, events r a)
  | SUn o x =>
      match pev m r x with
      | Some (v, _, t) => if un_ok m e o (py_un o v) then Some (py_un o v, py_un o v, t) else None
      | None => None
      end
  | SBin o a b =>
      match pev m r a with
      | None => None
      | Some (va, _, ta) =>
          let stop := match o with And => va =? 0 | Or => negb (va =? 0) | _ => false end in
          if stop && negb (eager m) then Some (va, va, ta)
          else match pev m r b with
               | None => None
               | Some (vb, _, tb) =>
                   match o with
                   | And | Or => let v := if stop then va else vb in Some (v, v, (ta ++ tb)%list)
                   | _ => match py_bin o va vb with
                          | Some v => if bin_ok m e o va vb v then Some (v, vb, (ta ++ tb)%list) else None
                          | None => None
                          end
                   end
               end
      end
  | SMore p o b =>
      match pev m r p with
      | None => None
      | Some (vp, last, tp) =>
          if (vp =? 0) && negb (eager m) then Some (0, last, tp)
          else match pev m r b with
               | None => None
               | Some (vb, _, tb) =>
                   match py_bin o last vb with
                   | Some v => Some (if vp =? 0 then 0 else v, vb, (tp ++ tb)%list)
                   | None => None
                   end
               end
      end
  | STern c a b =>
      match pev m r c with
      | None => None
      | Some (vc, _, tc) =>
          if eager m then
            match pev m r a, pev m r b with
            | Some (va, _, ta), Some (vb, _, tb) =>
                let v := if vc =? 0 then vb else va in Some (v, v, (tc ++ ta ++ tb)%list)
            | _, _ => None
            end
          else match pev m r (if vc =? 0 then b else a) with
               | Some (v, _, t) => Some (v, v, (tc ++ t)%list)
               | None => None
               end
      end
  | SBool x =>
      match pev m r x with
      | Some (v, _, t) => let w := b2z (negb (v =? 0)) in Some (w, w, t)
      | None => None
      end
  end.
(* Python itself *)
Definition python := mkMode false (fun _ => 0) false.
Definition py_value (r : env) (e : se) (v : Z) (calls : list string) : Prop :=
  exists l, pev python r e = Some (v, l, calls).
(* The width of the type C computes an expression in: int (32 bits) when it is made of
   booleans only, otherwise int64_t.  The boolean operands of shifts and of bitwise
   operators with a number are cast to int64_t. *)
Fixpoint wid (e : se) : Z :=
  match e with
  | SAt _ t => if is_bool t then 32 else 64
  | SUn (Plus | Minus) x => wid x
  | SUn Not _ => 32
  | SUn Inv x => if is_bool (sty x) then 64 else wid x
  | SBin (Add | Sub | Mul) a b => Z.max (wid a) (wid b)
  | SBin (Mod | FloorDiv) _ _ => 64
  | SBin (LSh | RSh) a _ => if is_bool (sty a) then 64 else wid a
  | SBin (BXor | BOr | BAnd) a b =>
      if is_bool (sty a) && is_bool (sty b) then 32
      else Z.max (if is_bool (sty a) then 64 else wid a) (if is_bool (sty b) then 64 else wid b)
  | STern _ a b => Z.max (wid a) (wid b)
  | _ => 32
  end.
(* Python's evaluation, as long as everything fits: as C needs it, and as Fortran does *)
Definition fits_c := mkMode true wid false.
Definition fits_f := mkMode true (fun _ => 64) true.
Definition py_value_c (r : env) (e : se) (v : Z) (calls : list string) : Prop :=
  exists l, pev fits_c r e = Some (v, l, calls).
Definition py_value_f (r : env) (e : se) (v : Z) (calls : list string) : Prop :=
  exists l, pev fits_f r e = Some (v, l, calls).

(* Expressions of integers and booleans, whose atoms have the types in the environment.
   The operands of and, or, is are boolean, those of a minus sign are not; no powers,
   no /, no `in`. *)
Fixpoint int_expr (r : env) (e : se) : Prop :=
  match e with
  | SAt a t => t = kind r a /\ t <> TFloat
  | SUn o x => int_expr r x /\ (o = Minus -> sty x = TInt)
  | SBin o a b =>
      int_expr r a /\ int_expr r b /\
      match o with
      | Pow | Div | InOp => False
      | And | Or | Is | IsNot => sty a = TBool /\ sty b = TBool
      | _ => True
      end
  | SMore p o b => int_expr r p /\ int_expr r b /\ o <> Is /\ o <> IsNot /\ o <> InOp
  | STern c a b => int_expr r c /\ int_expr r a /\ int_expr r b
  | SBool x => int_expr r x
  end.
(* no calls in it *)
Fixpoint silent (r : env) (e : se) : Prop :=
  match e with
  | SAt a _ => eff r a = false
  | SUn _ x | SBool x => silent r x
  | SBin _ a b | SMore a _ b => silent r a /\ silent r b
  | STern c a b => silent r c /\ silent r a /\ silent r b
  end.
(* no calls in the inner operands of chains of comparisons, nor to the right of & and |
   between booleans *)
Fixpoint calls_ok (r : env) (e : se) : Prop :=
  match e with
  | SAt _ _ => True
  | SUn _ x | SBool x => calls_ok r x
  | SBin o a b =>
      calls_ok r a /\ calls_ok r b /\
      match o with BOr | BAnd => sty a = TBool -> sty b = TBool -> silent r b | _ => True end
  | SMore p _ b =>
      calls_ok r p /\ calls_ok r b /\
      match p with SBin _ _ x | SMore _ _ x => silent r x | _ => True end
  | STern c a b => calls_ok r c /\ calls_ok r a /\ calls_ok r b
  end.
(* calls on one side only of every operator but and, or *)
Fixpoint one_sided (r : env) (e : se) : Prop :=
  match e with
  | SAt _ _ => True
  | SUn _ x | SBool x => one_sided r x
  | SBin o a b =>
      one_sided r a /\ one_sided r b /\
      match o with And | Or => True | _ => silent r a \/ silent r b end
  | SMore p _ b =>
      one_sided r p /\ one_sided r b
  | STern c a b => one_sided r c /\ one_sided r a /\ one_sided r b
  end.

(* ---- C ---- *)
Inductive cop := CAdd | CSub | CMul | CShl | CShr | CXor | CIor | CAnd_ | CEq | CNe | CLt | CLe | CGt | CGe
  | CLand | CLor | CDiv | CRem.
Definition c_op (o : string) : option cop :=
  find o [("+", CAdd); ("-", CSub); ("*", CMul); ("<<", CShl); (">>", CShr); ("^", CXor); ("|", CIor);
          ("&", CAnd_); ("==", CEq); ("!=", CNe); ("<", CLt); ("<=", CLe); (">", CGt); (">=", CGe);
          ("&&", CLand); ("||", CLor); ("/", CDiv); ("%", CRem)].
Inductive cpre := CPlus | CMinus | CNot | CCompl | CToInt64.
Definition c_pre (o : string) : option cpre :=
  find o [("+", CPlus); ("-", CMinus); ("!", CNot); ("~", CCompl); ("(int64_t)", CToInt64)].
(* C17 6.3.1.8: the width after the usual conversions.  bool becomes int. *)
Fixpoint cwid (r : env) (t : txt) : Z :=
  match t with
  | At a => if is_bool (kind r a) then 32 else 64
  | Par t => cwid r t
  | Pre o t => match c_pre o with Some CNot => 32 | Some CToInt64 => 64 | _ => cwid r t end
  | In o a b =>
      match c_op o with
      | Some (CAdd | CSub | CMul | CDiv | CRem | CXor | CIor | CAnd_) => Z.max (cwid r a) (cwid r b)
      | Some (CShl | CShr) => cwid r a
      | _ => 32
      end
  | TQ _ a b => Z.max (cwid r a) (cwid r b)
  | _ => 64
  end.
(* C17 6.5.3 to 6.5.15; Undef: undefined behaviour.  >> on negative numbers copies the
   sign (implementation defined; every compiler Pyccel supports does so).  The calls of
   pyc_modulo and py_floor_div_int64_t are those of C13 and C14. *)
Fixpoint cval (r : env) (t : txt) : run Z :=
  match t with
  | At a => Ret (val r a)
  | Par t => cval r t
  | Pre o x =>
      v <- cval r x ;;
      match c_pre o with
      | Some CPlus | Some CToInt64 => Ret v
      | Some CMinus => chk (cwid r x) (- v)
      | Some CNot => Ret (b2z (v =? 0))
      | Some CCompl => Ret (Z.lnot v)
      | None => Undef
      end
  | In o x y =>
      let w := cwid r t in
      match c_op o with
      | Some CLand => a <- cval r x ;; if a =? 0 then Ret 0 else b <- cval r y ;; Ret (b2z (negb (b =? 0)))
      | Some CLor => a <- cval r x ;; if a =? 0 then b <- cval r y ;; Ret (b2z (negb (b =? 0))) else Ret 1
      | Some o =>
          a <- cval r x ;; b <- cval r y ;;
          match o with
          | CAdd => chk w (a + b) | CSub => chk w (a - b) | CMul => chk w (a * b)
          | CDiv => c_div w a b | CRem => c_rem w a b
          | CShl => if (a <? 0) || (b <? 0) || (w <=? b) then Undef else chk w (Z.shiftl a b)
          | CShr => if (b <? 0) || (w <=? b) then Undef else Ret (Z.shiftr a b)
          | CXor => Ret (Z.lxor a b) | CIor => Ret (Z.lor a b) | CAnd_ => Ret (Z.land a b)
          | CEq => Ret (b2z (a =? b)) | CNe => Ret (b2z (negb (a =? b)))
          | CLt => Ret (b2z (a <? b)) | CLe => Ret (b2z (a <=? b))
          | CGt => Ret (b2z (b <? a)) | CGe => Ret (b2z (b <=? a))
          | CLand | CLor => Undef
          end
      | None => Undef
      end
  | Call2 f x y =>
      a <- cval r x ;; b <- cval r y ;;
      if String.eqb f "pyc_modulo" then c_modulo a b
      else if String.eqb f "py_floor_div_int64_t" then c_floor_div 64 a b else Undef
  | TQ c x y => v <- cval r c ;; if v =? 0 then cval r y else cval r x
  | Call1 _ _ | Call3 _ _ _ _ | TIf _ _ _ => Undef
  end.
(* 6.5p3: the operands of an operator are evaluated in any order, interleaved in any
   way; && || ?: from left to right, and only as far as needed (6.5.13-15). *)
Inductive shuffle {A} : list A -> list A -> list A -> Prop :=
| sh_nil : shuffle [] [] []
| sh_l x a b c : shuffle a b c -> shuffle (x :: a) b (x :: c)
| sh_r x a b c : shuffle a b c -> shuffle a (x :: b) (x :: c).
Fixpoint ctrace (r : env) (t : txt) (l : list string) : Prop :=
  match t with
  | At a => l = events r a
  | Par t | Pre _ t | Call1 _ t => ctrace r t l
  | In o a b =>
      match c_op o with
      | Some CLand => exists la, ctrace r a la /\
          if match cval r a with Ret v => v =? 0 | _ => false end then l = la
          else exists lb, ctrace r b lb /\ l = (la ++ lb)%list
      | Some CLor => exists la, ctrace r a la /\
          if match cval r a with Ret v => negb (v =? 0) | _ => false end then l = la
          else exists lb, ctrace r b lb /\ l = (la ++ lb)%list
      | _ => exists la lb, ctrace r a la /\ ctrace r b lb /\ shuffle la lb l
      end
  | Call2 _ a b => exists la lb, ctrace r a la /\ ctrace r b lb /\ shuffle la lb l
  | TQ c a b => exists lc, ctrace r c lc /\
      if match cval r c with Ret v => negb (v =? 0) | _ => false end
      then exists la, ctrace r a la /\ l = (lc ++ la)%list
      else exists lb, ctrace r b lb /\ l = (lc ++ lb)%list
  | Call3 _ _ _ _ | TIf _ _ _ => False
  end.
(* 6.5.16: the value the variable has after a statement.  A bool takes 0 or 1 (6.3.1.2). *)
Definition c_store (t : ptype) (v : Z) : Z := if is_bool t then b2z (negb (v =? 0)) else v.
Definition c_exec (r : env) (s : stmt) (read_c : txt -> option txt) : run Z :=
  match s with
  | Asg x rhs =>
      match read_c rhs with Some t => v <- cval r t ;; Ret (c_store (kind r x) v) | None => Undef end
  | OpAsg x o rhs =>
      match read_c rhs with
      | Some t => v <- cval r (In o (At x) t) ;; Ret (c_store (kind r x) v)
      | None => Undef
      end
  end.
Definition c_run (r : env) (s : stmt) : run Z := c_exec r s (fun t => read c_lang (words t)).

(* ---- Fortran ---- *)
Inductive fv := FL (b : bool) | FN (z : Z).
Definition num (v : fv) : Z := match v with FL b => b2z b | FN z => z end.
(* Undef: undefined, or an operation Fortran does not have on these types.  All operands
   are evaluated. *)
Definition f_arith (o : string) (a b : Z) : run fv :=
  let cmp c := Ret (FL c) in
  let arith z := v <- chk 64 z ;; Ret (FN v) in
  match find o [("+", arith (a + b)); ("-", arith (a - b)); ("*", arith (a * b));
                ("==", cmp (a =? b)); ("/=", cmp (negb (a =? b))); ("<", cmp (a <? b)); ("<=", cmp (a <=? b));
                (">", cmp (b <? a)); (">=", cmp (b <=? a))] with
  | Some v => v | None => Undef end.
Definition f_logic (o : string) (a b : bool) : run fv :=
  match find o [(".and.", a && b); (".or.", a || b); (".eqv.", Bool.eqb a b); (".neqv.", negb (Bool.eqb a b))] with
  | Some v => Ret (FL v) | None => Undef end.
Definition f_call2 (f : string) (a b : Z) : run fv :=
  let num v := z <- v ;; Ret (FN z) in
  let shift v := if (b <? 0) || (64 <=? b) then Undef else chk 64 v in
  match find f [("MODULO", num (f_modulo a b)); ("pyc_floor_div", num (f_floor_div 64 a b));
                ("LSHIFT", num (shift (Z.shiftl a b))); ("RSHIFT", num (shift (Z.shiftr a b)));
                ("IEOR", Ret (FN (Z.lxor a b))); ("IOR", Ret (FN (Z.lor a b))); ("IAND", Ret (FN (Z.land a b)))] with
  | Some v => v | None => Undef end.
Fixpoint fval (r : env) (t : txt) : run fv :=
  match t with
  | At a => match kind r a with
            | TBool => Ret (FL (negb (val r a =? 0)))
            | TInt => Ret (FN (val r a))
            | TFloat => Undef
            end
  | Par t => fval r t
  | Pre o x =>
      v <- fval r x ;;
      match v with
      | FL b => if String.eqb o ".not." then Ret (FL (negb b)) else Undef
      | FN z => if String.eqb o "+" then Ret (FN z)
                else if String.eqb o "-" then v <- chk 64 (- z) ;; Ret (FN v) else Undef
      end
  | In o x y =>
      a <- fval r x ;; b <- fval r y ;;
      match a, b with
      | FL a, FL b => f_logic o a b
      | FN a, FN b => f_arith o a b
      | _, _ => Undef
      end
  | Call1 f x =>
      v <- fval r x ;;
      match v with
      | FL b => if String.eqb f "logical" then Ret (FL b) else Undef
      | FN z => if String.eqb f "NOT" then Ret (FN (Z.lnot z)) else Undef
      end
  | Call2 f x y =>
      a <- fval r x ;; b <- fval r y ;;
      match a, b with FN a, FN b => f_call2 f a b | _, _ => Undef end
  | Call3 f x y c =>
      a <- fval r x ;; b <- fval r y ;; k <- fval r c ;;
      if String.eqb f "merge" || String.eqb f "MERGE" then
        match a, b, k with
        | FL a, FL b, FL k => Ret (FL (if k then a else b))
        | FN a, FN b, FL k => Ret (FN (if k then a else b))
        | _, _, _ => Undef
        end
      else Undef
  | TQ _ _ _ | TIf _ _ _ => Undef
  end.
(* The calls: all operands are evaluated, in any order; when the value of an .and. or .or.
   is clear without one of the operands, that operand may be left out (10.1.7).
   The arguments of a function such as merge are evaluated before it is called. *)
Definition is_fl (v : run fv) (b : bool) : bool := match v with Ret (FL c) => Bool.eqb b c | _ => false end.
Fixpoint ftrace (r : env) (t : txt) (l : list string) : Prop :=
  match t with
  | At a => l = events r a
  | Par t | Pre _ t | Call1 _ t => ftrace r t l
  | In o a b =>
      (exists la lb, ftrace r a la /\ ftrace r b lb /\ shuffle la lb l) \/
      let clear v := (String.eqb o ".and." && is_fl v false) || (String.eqb o ".or." && is_fl v true) in
      (clear (fval r a) = true /\ ftrace r a l) \/ (clear (fval r b) = true /\ ftrace r b l)
  | Call2 _ a b => exists la lb, ftrace r a la /\ ftrace r b lb /\ shuffle la lb l
  | Call3 _ a b c => exists la lb lc l2, ftrace r a la /\ ftrace r b lb /\ ftrace r c lc
                                          /\ shuffle la lb l2 /\ shuffle l2 lc l
  | TQ _ _ _ | TIf _ _ _ => False
  end.
Definition f_run (r : env) (s : stmt) : run Z :=
  match s with
  | Asg x rhs =>
      match read f_lang (words rhs) with
      | Some t => v <- fval r t ;;
                  match v, kind r x with
                  | FL b, TBool => Ret (b2z b) | FN z, TInt => Ret z | _, _ => Undef end
      | None => Undef
      end
  | OpAsg _ _ _ => Undef
  end.
(* The operands of % are numbers. *)
Fixpoint mod_ok (e : se) : Prop :=
  match e with
  | SAt _ _ => True
  | SUn _ x | SBool x => mod_ok x
  | SBin o a b => mod_ok a /\ mod_ok b /\ match o with Mod => sty a = TInt /\ sty b = TInt | _ => True end
  | SMore p _ b => mod_ok p /\ mod_ok b
  | STern c a b => mod_ok c /\ mod_ok a /\ mod_ok b
  end.
