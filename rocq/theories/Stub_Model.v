(** Type annotations: how the types are written in the stub files (.pyi), and how
    annotations are read.

    Models /repo/pyccel/codegen/printing/pycode.py lines 261-317
    (_get_type_annotation, for variables) and 2042-2122 (the printers of types);
    /repo/pyccel/parser/grammar/types.tx with /repo/pyccel/parser/syntax/headers.py
    lines 112-263 (the reading of a string by textX);
    /repo/pyccel/parser/semantic.py lines 3089-3264 (_get_indexed_type), 4025-4034
    (_visit_UnionTypeAnnotation), 4310-4350 (_visit_PyccelSymbol) and 4486-4538
    (_visit_SyntacticTypeAnnotation); /repo/pyccel/ast/type_annotations.py lines
    210-232 (UnionTypeAnnotation) and /repo/pyccel/ast/datatypes.py lines 222-283,
    898-921, 971-994, 1023-1043, 1110-1159 and 1250-1277 with
    /repo/pyccel/ast/numpytypes.py lines 309-343 (get_new and its lru_cache).

    Simplifications: no types of functions, no generic type, no type variables.
    An entry of a lru_cache is never dropped.  An exception of Python and an error
    of Pyccel are both None. *)

From Coq Require Import List String Ascii Bool Arith.
Import ListNotations.
Open Scope string_scope.

(** ** Types *)

Inductive scalar :=
| Bool | Int | Float | Complex            (* of Python *)
| Int8 | Int16 | Int32 | Int64 | Float32 | Float64 | Float128
| Complex64 | Complex128 | Complex256.    (* of NumPy *)

Inductive order := OC | OF.

Inductive ty :=
| Num (s : scalar)
| Str
| Class (n : string)
| Array (e : ty) (rank : nat) (o : option order)
| HTup (e : ty)                 (* tuple[e, ...] *)
| ITup (l : list ty)
| Lst (e : ty)
| SetT (e : ty)
| Dict (k v : ty)
| Final (t : ty).

(** ** How they are written *)

Definition scalar_name (s : scalar) : string :=
  match s with
  | Bool => "bool" | Int => "int" | Float => "float" | Complex => "complex"
  | Int8 => "int8" | Int16 => "int16" | Int32 => "int32" | Int64 => "int64"
  | Float32 => "float32" | Float64 => "float64" | Float128 => "float128"
  | Complex64 => "complex64" | Complex128 => "complex128" | Complex256 => "complex256"
  end.

Definition order_name (o : order) : string := match o with OC => "C" | OF => "F" end.

(* ", ".join *)
Fixpoint join (sep : string) (l : list string) : string :=
  match l with
  | [] => ""
  | [a] => a
  | a :: r => a ++ sep ++ join sep r
  end.

(* 2063-2122 *)
Fixpoint print (t : ty) : string :=
  match t with
  | Num s => scalar_name s
  | Str => "str"
  | Class n => n
  | Array e r o =>
    print e ++ "[" ++ join "," (repeat ":" r) ++ "]" ++
    match o with Some o' => "(order=" ++ order_name o' ++ ")" | None => "" end
  | HTup e => "tuple[" ++ print e ++ ", ...]"
  | ITup [] => "tuple[()]"
  | ITup l => "tuple[" ++ join ", " (map print l) ++ "]"
  | Lst e => "list[" ++ print e ++ "]"
  | SetT e => "set[" ++ print e ++ "]"
  | Dict k v => "dict[" ++ print k ++ ", " ++ print v ++ "]"
  | Final t' => "Final[" ++ print t' ++ "]"
  end.

(* What a variable adds to its type. *)
Inductive memory := MAlias | MStack.
Notation ann := (ty * option memory)%type (only parsing).

(* 296-309: Variable *)
Definition print_ann (a : ty * option memory) : string :=
  match snd a with
  | None => print (fst a)
  | Some MAlias => "Annotated[" ++ print (fst a) ++ ", ""alias""]"
  | Some MStack => "Annotated[" ++ print (fst a) ++ ", ""stack""]"
  end.

(* _print_UnionTypeAnnotation *)
Definition print_union (l : list ty) : string := join " | " (map print l).

(** ** How a string is read: the grammar types.tx *)

Definition is_space (c : ascii) : bool :=
  (c =? " ")%char || (c =? "009")%char || (c =? "010")%char || (c =? "013")%char.

Fixpoint skip (s : string) : string :=
  match s with
  | String c r => if is_space c then skip r else s
  | EmptyString => s
  end.

Fixpoint strip (w s : string) : option string :=
  match w, s with
  | EmptyString, _ => Some s
  | String a w', String b s' => if (a =? b)%char then strip w' s' else None
  | String _ _, EmptyString => None
  end.

(* A string match of textX: the white space before it is skipped. *)
Definition tok (w s : string) : option string := strip w (skip s).

Definition between (a b c : ascii) : bool :=
  (nat_of_ascii a <=? nat_of_ascii c)%nat && (nat_of_ascii c <=? nat_of_ascii b)%nat.
Definition is_alpha (c : ascii) : bool :=
  between "a" "z" c || between "A" "Z" c || (c =? "_")%char.
Definition is_word (c : ascii) : bool := is_alpha c || between "0" "9" c.

Fixpoint word (s : string) : string * string :=
  match s with
  | String c r => if is_word c then let '(a, b) := word r in (String c a, b) else ("", s)
  | EmptyString => ("", s)
  end.

(* ID *)
Definition ident (s : string) : option (string * string) :=
  match skip s with
  | String c r => if is_alpha c then Some (word (String c r)) else None
  | EmptyString => None
  end.

Fixpoint until (q : ascii) (s : string) : option (string * string) :=
  match s with
  | EmptyString => None
  | String c r =>
    if (c =? q)%char then Some ("", r)
    else match until q r with Some (a, b) => Some (String c a, b) | None => None end
  end.

(* Str: SingleQuotedStr | DoubleQuotedStr *)
Definition quoted (s : string) : option (string * string) :=
  match tok "'" s with
  | Some r => until "'" r
  | None => match tok """" s with Some r => until """" r | None => None end
  end.

(* What is read.  The contents of IndexType: Slice | Ellipsis | Type | Str; the
   last case is never reached as a Type can be a Str. *)
Inductive base := BName (n : string) | BQuote (n : string).
Inductive syn :=
| SSlice
| SEllipsis
| SType (b : base) (trailer : option (list syn * option string)).

(* DataType: ID|STAR|Ellipsis|Str *)
Definition p_dtype (s : string) : option (base * string) :=
  match ident s with
  | Some (n, r) => Some (BName n, r)
  | None =>
    match tok "*" s with
    | Some r => Some (BName "*", r)
    | None =>
      match tok "..." s with
      | Some r => Some (BName "...", r)
      | None => match quoted s with Some (n, r) => Some (BQuote n, r) | None => None end
      end
    end
  end.

Definition lower (c : ascii) : ascii :=
  if between "A" "Z" c then ascii_of_nat (nat_of_ascii c + 32) else c.
Definition upper (c : ascii) : ascii :=
  if between "a" "z" c then ascii_of_nat (nat_of_ascii c - 32) else c.
Fixpoint smap (f : ascii -> ascii) (s : string) : string :=
  match s with String c r => String (f c) (smap f r) | EmptyString => s end.

(* headers.py 129: order.capitalize() *)
Definition capitalize (s : string) : string :=
  match s with String c r => String (upper c) (smap lower r) | EmptyString => s end.

(* ( '(' 'order' '=' order = ID ')' )? *)
Definition p_order (s : string) : option string * string :=
  match tok "(" s with
  | None => (None, s)
  | Some s1 =>
    match tok "order" s1 with
    | None => (None, s)
    | Some s2 =>
      match tok "=" s2 with
      | None => (None, s)
      | Some s3 =>
        match ident s3 with
        | None => (None, s)
        | Some (o, s4) =>
          match tok ")" s4 with
          | None => (None, s)
          | Some s5 => (Some (capitalize o), s5)
          end
        end
      end
    end
  end.

Fixpoint p_type (fuel : nat) (s : string) : option (syn * string) :=
  match fuel with
  | O => None
  | S f =>
    match p_dtype s with
    | None => None
    | Some (b, s1) =>
      match tok "[" s1 with
      | None => Some (SType b None, s1)
      | Some s2 =>
        let '(l, s3) :=
          match p_index f s2 with
          | None => ([], s2)
          | Some (a, s4) => let '(r, s5) := p_more f s4 in (a :: r, s5)
          end in
        match tok "]" s3 with
        | None => Some (SType b None, s1)
        | Some s6 => let '(o, s7) := p_order s6 in Some (SType b (Some (l, o)), s7)
        end
      end
    end
  end
with p_index (fuel : nat) (s : string) : option (syn * string) :=
  match tok ":" s with
  | Some r => Some (SSlice, r)
  | None =>
    match tok "..." s with
    | Some r => Some (SEllipsis, r)
    | None => match fuel with O => None | S f => p_type f s end
    end
  end
with p_more (fuel : nat) (s : string) : list syn * string :=
  match fuel with
  | O => ([], s)
  | S f =>
    match tok "," s with
    | None => ([], s)
    | Some s1 =>
      match p_index f s1 with
      | None => ([], s)
      | Some (a, s2) => let '(l, s3) := p_more f s2 in (a :: l, s3)
      end
    end
  end.

(* UnionTypeStmt: dtypes += TypeHeader['|'], and the end of the string. *)
Fixpoint p_union (fuel : nat) (s : string) : option (list syn) :=
  match fuel with
  | O => None
  | S f =>
    match p_type f s with
    | None => None
    | Some (a, s1) =>
      match tok "|" s1 with
      | Some s2 => match p_union f s2 with Some l => Some (a :: l) | None => None end
      | None => if (skip s1 =? "") then Some [a] else None
      end
    end
  end.

Definition parse (s : string) : option (list syn) := p_union (2 * String.length s + 4) s.

(** ** What the names mean *)

Inductive meaning :=
| MScalar (s : scalar)
| MStr | MTuple | MList | MSet | MDict | MFinal | MAnnotated
| MTypes (l : list (ty * option memory))    (* a type alias *)
| MClass (n : string).

Notation scope := (list (string * meaning)) (only parsing).

Definition assoc {A : Type} (l : list (string * A)) (n : string) : option A :=
  match find (fun p => (fst p =? n)) l with Some p => Some (snd p) | None => None end.

(* builtin_functions_dict *)
Definition builtins : list (string * meaning) :=
  [("bool", MScalar Bool); ("int", MScalar Int); ("float", MScalar Float); ("complex", MScalar Complex);
   ("str", MStr); ("tuple", MTuple); ("list", MList); ("set", MSet); ("dict", MDict)].

(* numpy_funcs, numpyext.py 3944-3961: without float128 and complex256 *)
Definition numpy_names : list (string * meaning) :=
  [("int8", MScalar Int8); ("int16", MScalar Int16); ("int32", MScalar Int32); ("int64", MScalar Int64);
   ("float32", MScalar Float32); ("float64", MScalar Float64); ("double", MScalar Float64);
   ("complex64", MScalar Complex64); ("complex128", MScalar Complex128)].

(* 4310-4327 *)
Definition lookup (sc : list (string * meaning)) (n : string) : option meaning :=
  match assoc sc n with
  | Some m => Some m
  | None => match assoc builtins n with Some m => Some m | None => assoc numpy_names n end
  end.

(** ** Types are made once *)

Definition scalar_eqb (a b : scalar) : bool := (scalar_name a =? scalar_name b).
Definition order_eqb (a b : option order) : bool :=
  match a, b with
  | None, None | Some OC, Some OC | Some OF, Some OF => true
  | _, _ => false
  end.

Fixpoint ty_eqb (a b : ty) {struct a} : bool :=
  match a, b with
  | Num s, Num s' => scalar_eqb s s'
  | Str, Str => true
  | Class n, Class n' => (n =? n')
  | Array e r o, Array e' r' o' => ty_eqb e e' && (r =? r')%nat && order_eqb o o'
  | HTup e, HTup e' | Lst e, Lst e' | SetT e, SetT e' | Final e, Final e' => ty_eqb e e'
  | ITup l, ITup l' =>
    (fix go l l' := match l, l' with
                    | [], [] => true
                    | x :: r, y :: r' => ty_eqb x y && go r r'
                    | _, _ => false
                    end) l l'
  | Dict k v, Dict k' v' => ty_eqb k k' && ty_eqb v v'
  | _, _ => false
  end.

(* datatypes.py 254-258: Final[t] has the hash of t and is equal to it. *)
Fixpoint erase (t : ty) : ty :=
  match t with
  | Num s => Num s
  | Str => Str
  | Class n => Class n
  | Array e r o => Array (erase e) r o
  | HTup e => HTup (erase e)
  | ITup l => ITup (map erase l)
  | Lst e => Lst (erase e)
  | SetT e => SetT (erase e)
  | Dict k v => Dict (erase k) (erase v)
  | Final t' => erase t'
  end.
Definition equal (a b : ty) : bool := ty_eqb (erase a) (erase b).

Definition is_final (t : ty) : bool := match t with Final _ => true | _ => false end.

(* The lru_cache of the functions get_new: the types which were made.  The one of
   FinalType is another one. *)
Definition same_key (a b : ty) : bool := Bool.eqb (is_final a) (is_final b) && equal a b.

Definition get_new (c : list ty) (t : ty) : ty * list ty :=
  match find (same_key t) c with
  | Some t' => (t', c)
  | None => (t, t :: c)
  end.

(* FinalType.get_new *)
Definition mk_final (t : ty) : ty := if is_final t then t else Final t.

(* numpyext.py 356-361, on scalars *)
Definition numpy_scalar (s : scalar) : scalar :=
  match s with Int => Int64 | Float => Float64 | Complex => Complex128 | _ => s end.
(* isinstance(dtype, (NumpyNumericType, PythonNativeBool)) *)
Definition process_dtype (t : ty) : option ty :=
  match t with
  | Num s => Some (Num (numpy_scalar s))
  | Final (Num s) =>
    match s with
    | Int | Float | Complex => Some (Num (numpy_scalar s))
    | _ => Some t
    end
  | _ => None
  end.

(** ** What an annotation means *)

(* UnionTypeAnnotation: the repeats are dropped *)
Definition ann_eqb (a b : ty * option memory) : bool :=
  match snd a, snd b with None, None => equal (fst a) (fst b) | _, _ => false end.
Fixpoint dedup (seen l : list (ty * option memory)) : list (ty * option memory) :=
  match l with
  | [] => []
  | a :: r => if existsb (ann_eqb a) seen then dedup seen r else a :: dedup (a :: seen) r
  end.
Definition union (l : list (ty * option memory)) : list (ty * option memory) := dedup [] l.

Fixpoint plain (l : list (ty * option memory)) : option (list ty) :=
  match l with
  | [] => Some []
  | (t, None) :: r => match plain r with Some ts => Some (t :: ts) | None => None end
  | _ => None
  end.

(* [C.get_new(t) for t in ts] *)
Fixpoint make (f : ty -> ty) (ts : list ty) (c : list ty) : list (ty * option memory) * list ty :=
  match ts with
  | [] => ([], c)
  | t :: r =>
    let '(t', c1) := get_new c (f t) in
    let '(l, c2) := make f r c1 in
    ((t', None) :: l, c2)
  end.

(* itertools.product *)
Fixpoint product (l : list (list ty)) : list (list ty) :=
  match l with
  | [] => [[]]
  | ts :: r => flat_map (fun t => map (cons t) (product r)) ts
  end.

Fixpoint make_tuples (ls : list (list ty)) (c : list ty) : list (ty * option memory) * list ty :=
  match ls with
  | [] => ([], c)
  | l :: r =>
    let '(t', c1) := get_new c (ITup l) in
    let '(m, c2) := make_tuples r c1 in
    ((t', None) :: m, c2)
  end.

(* zip(key_types, val_types) *)
Fixpoint make_dicts (l : list (ty * ty)) (c : list ty) : list (ty * option memory) * list ty :=
  match l with
  | [] => ([], c)
  | (k, v) :: r =>
    let '(t', c1) := get_new c (Dict k v) in
    let '(m, c2) := make_dicts r c1 in
    ((t', None) :: m, c2)
  end.

(* 3195-3222: slices only *)
Definition array_of (t : ty) (rank : nat) (c : list ty) : option (ty * list ty) :=
  match process_dtype t with
  | None => None
  | Some e => Some (get_new c (Array e rank (if (rank <? 2)%nat then None else Some OC)))
  end.

Fixpoint arrays_of (l : list (ty * option memory)) (rank : nat) (c : list ty)
  : option (list (ty * option memory) * list ty) :=
  match l with
  | [] => Some ([], c)
  | (t, None) :: r =>
    match array_of t rank c with
    | None => None
    | Some (t', c1) =>
      match arrays_of r rank c1 with
      | None => None
      | Some (m, c2) => Some ((t', None) :: m, c2)
      end
    end
  | (_, Some _) :: _ => None
  end.

Definition is_slice (a : syn) : bool := match a with SSlice => true | _ => false end.

(* numpytypes.py 444-459; only arrays have it *)
Definition swap (o : order) : order := match o with OC => OF | OF => OC end.
Definition order_of (t : ty) : option string :=
  match t with Array _ _ (Some o) => Some (order_name o) | _ => None end.
Definition swap_order (t : ty) (c : list ty) : option (ty * list ty) :=
  match t with
  | Array e r None => Some (get_new c (Array e r None))
  | Array e r (Some o) => Some (get_new c (Array e r (Some (swap o))))
  | _ => None
  end.

(* 4508-4515 *)
Definition with_order (o : option string) (l : list (ty * option memory)) (c : list ty)
  : option (list (ty * option memory) * list ty) :=
  match o, l with
  | Some o', [(t, None)] =>
    if match order_of t with Some x => (x =? o') | None => false end then Some (l, c)
    else
      match swap_order t c with
      | Some (t', c') => Some ([(t', None)], c')
      | None => None
      end
  | _, _ => Some (l, c)
  end.

Fixpoint metas (l : list syn) : option (list string) :=
  match l with
  | [] => Some []
  | SType (BQuote m) None :: r => match metas r with Some ms => Some (m :: ms) | None => None end
  | _ => None
  end.

(* 3115-3178 *)
Definition annotated (l : list (ty * option memory)) (ms : list string) : option (list (ty * option memory)) :=
  match plain l with
  | None => None             (* nested Annotated[] *)
  | Some ts =>
    let al := existsb (String.eqb "alias") ms in
    let st := existsb (String.eqb "stack") ms in
    match ts with
    | [t] => if al && st then None
             else Some [(t, if al then Some MAlias else if st then Some MStack else None)]
    | _ => if al || st then None   (* refused when the variable is declared, 4454 *)
           else Some l
    end
  end.

Fixpoint visit (sc : list (string * meaning)) (s : syn) (c : list ty) {struct s}
  : option (list (ty * option memory) * list ty) :=
  match s with
  | SSlice | SEllipsis => None
  | SType (BQuote _) _ => None   (* a string in the string: not modelled *)
  | SType (BName n) None =>
    match lookup sc n with
    | Some (MScalar x) => Some ([(Num x, None)], c)
    | Some MStr => Some ([(Str, None)], c)
    | Some (MTypes l) => Some (l, c)
    | Some (MClass m) => Some ([(Class m, None)], c)
    | _ => None
    end
  | SType (BName n) (Some (args, o)) =>
    let types :=
      (fix go (l : list syn) (c : list ty) : option (list (list ty) * list ty) :=
         match l with
         | [] => Some ([], c)
         | a :: r =>
           match visit sc a c with
           | None => None
           | Some (la, c1) =>
             match plain la with
             | None => None
             | Some ta =>
               match go r c1 with
               | None => None
               | Some (lr, c2) => Some (ta :: lr, c2)
               end
             end
           end
         end) in
    let one (f : ty -> ty) :=
      match args with
      | a :: _ =>
        match visit sc a c with
        | None => None
        | Some (la, c1) =>
          match plain la with
          | None => None
          | Some ta => let '(l, c2) := make f ta c1 in Some (union l, c2)
          end
        end
      | [] => None
      end in
    let res :=
      match lookup sc n with
      | None => None
      | Some (MTypes l) =>
        if match args with [] => true | _ => false end || negb (forallb is_slice args) then None
        else
          match arrays_of l (List.length args) c with
          | Some (m, c1) => Some (union m, c1)
          | None => None
          end
      | Some MAnnotated =>
        match args with
        | a :: r =>
          match visit sc a c, metas r with
          | Some (l, c1), Some ms =>
            match annotated l ms with Some l' => Some (l', c1) | None => None end
          | _, _ => None
          end
        | [] => None
        end
      | Some m =>
        match args with
        | [] => match m with
                | MTuple => let '(t, c1) := get_new c (ITup []) in Some ([(t, None)], c1)
                | _ => None
                end
        | _ =>
          if forallb is_slice args then
            match m with
            | MScalar x =>
              match array_of (Num x) (List.length args) c with
              | Some (t, c1) => Some ([(t, None)], c1)
              | None => None
              end
            | _ => None
            end
          else if existsb is_slice args then None
          else
            match args, m with
            | [_; SEllipsis], MTuple => one HTup
            | [_; SEllipsis], MList | [_], MList => one Lst
            | [_; SEllipsis], MSet | [_], MSet => one SetT
            | [_; SEllipsis], MFinal | [_], MFinal => one mk_final
            | [_; SEllipsis], _ => None
            | [_; _], MDict =>
              match types args c with
              | Some ([ks; vs], c1) =>
                let '(l, c2) := make_dicts (combine ks vs) c1 in Some (union l, c2)
              | _ => None
              end
            | _, MTuple =>
              match types args c with
              | Some (ls, c1) => let '(l, c2) := make_tuples (product ls) c1 in Some (union l, c2)
              | None => None
              end
            | _, _ => None
            end
        end
      end in
    match res with
    | None => None
    | Some (l, c1) => with_order o l c1
    end
  end.

(* _visit_UnionTypeAnnotation *)
Fixpoint visit_all (sc : list (string * meaning)) (l : list syn) (c : list ty)
  : option (list (ty * option memory) * list ty) :=
  match l with
  | [] => Some ([], c)
  | a :: r =>
    match visit sc a c with
    | None => None
    | Some (la, c1) =>
      match visit_all sc r c1 with
      | None => None
      | Some (lr, c2) => Some ((la ++ lr)%list, c2)
      end
    end
  end.

(* A string as annotation. *)
Definition read (sc : list (string * meaning)) (c : list ty) (s : string)
  : option (list (ty * option memory) * list ty) :=
  match parse s with
  | Some [a] => visit sc a c
  | Some l => match visit_all sc l c with Some (m, c1) => Some (union m, c1) | None => None end
  | None => None
  end.
