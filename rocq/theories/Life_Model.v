(** The lifetime of the memory seen through the Python objects of a wrapped module.

    Models /repo/pyccel/codegen/wrapper/c_to_python_wrapper.py lines 859-917
    (_save_referenced_objects), 919-984 (_incref_return_pointer), 1271-1314
    (_allocate_class_instance), 1316-1384 (_get_class_allocator), 1386-1483
    (_get_class_initialiser), 1485-1557 (_get_class_destructor), 1675-1725
    (connect_pointer_targets), 2060-2252 (_wrap_FunctionDef), 2477-2663
    (_wrap_DottedVariable), 3129-3200 (_extract_CustomDataType_FunctionDefArgument),
    3896-3962 (_extract_CustomDataType_FunctionDefResult) and 3993-4118 (array
    results); /repo/pyccel/stdlib/cwrapper/cwrapper.c lines 229-262
    (capsule_cleanup, to_pyarray); /repo/pyccel/parser/semantic.py lines 917-928
    (persistent_target), 1012 (the attribute of a target counts as the target),
    1506-1530 (what __del__ frees) and 6634-6648 (result_pointer_map).

    Simplifications: only arrays and instances of classes are passed and
    returned; scalars have no lifetime to follow.  The list referenced_objects
    belongs to one instance and is written here as a list inside it.  The
    attributes of an attribute which is itself an instance are left out.  The
    compiled functions are given by what they do with pointers and memory: which
    attributes they set to point at what, which ones they reallocate and what
    they return.  Python raises no exception after the arguments were accepted:
    running out of memory is not modelled. *)

From Coq Require Import List Bool Arith.
Import ListNotations.

(** ** Memory of the compiled program *)

(** An attribute of an instance: an array it owns, an instance it owns, or a
    pointer to an array (true) or to an instance (false).
    semantic.py lines 1506-1513: the memory handling of the attributes. *)
Inductive field :=
| FArr (m : nat)
| FInst (m : nat)
| FPtr (arr : bool) (m : option nat).

Inductive cell :=
| CData                               (* the elements of an array *)
| CStruct (fs : list field).          (* an instance of a class *)

(** ** Python objects *)

(** c_to_python_wrapper.py lines 1271-1314: instance, is_alias and
    referenced_objects; cwrapper.c lines 234-262: the array and its capsule. *)
Inductive pobj :=
| PArr (d : nat) (own : bool) (base : option nat)
| PCap (d : nat)
| PInst (i : nat) (alias : bool) (refs : list nat).

Record obj := Obj { rc : nat; pay : pobj }.

(** The names the user holds are the references from outside. *)
Record state := St {
  objs : nat -> option obj; nobj : nat;
  mems : nat -> option cell; nmem : nat;
  names : list nat }.

Inductive res (A : Type) :=
| Ok (a : A)
| Fault                               (* released memory or objects are used *)
| Reject                              (* not a call that can be made *)
| Fuel.                               (* the loop below was cut short *)
Arguments Ok {A} a. Arguments Fault {A}. Arguments Reject {A}. Arguments Fuel {A}.

Definition bind {A B} (r : res A) (f : A -> res B) : res B :=
  match r with Ok a => f a | Fault => Fault | Reject => Reject | Fuel => Fuel end.

Definition ret_if (b : bool) {A} (r : res A) : res A := if b then r else Reject.

Definition upd {A} (f : nat -> option A) (k : nat) (v : option A) : nat -> option A :=
  fun x => if x =? k then v else f x.

Definition set_objs (st : state) (f : nat -> option obj) : state :=
  St f (nobj st) (mems st) (nmem st) (names st).
Definition set_mems (st : state) (f : nat -> option cell) : state :=
  St (objs st) (nobj st) f (nmem st) (names st).
Definition set_names (st : state) (l : list nat) : state :=
  St (objs st) (nobj st) (mems st) (nmem st) l.

(** The references an object holds. *)
Definition kids (p : pobj) : list nat :=
  match p with
  | PArr _ _ (Some b) => [b]
  | PArr _ _ None | PCap _ => []
  | PInst _ _ refs => refs
  end.

(** ** Allocation and release *)

(** Allocate, malloc. *)
Definition new_mem (c : cell) (st : state) : nat * state :=
  (nmem st, St (objs st) (nobj st) (upd (mems st) (nmem st) (Some c)) (S (nmem st)) (names st)).

(** Deallocate, free. *)
Definition free (m : nat) (st : state) : res state :=
  match mems st m with
  | None => Fault
  | Some _ => Ok (set_mems st (upd (mems st) m None))
  end.

Fixpoint free_all (l : list nat) (st : state) : res state :=
  match l with
  | [] => Ok st
  | m :: l' => bind (free m st) (free_all l')
  end.

(** semantic.py lines 1506-1520: __del__ frees the attributes which are not
    pointers. *)
Definition owned_field (f : field) : list nat :=
  match f with FArr m | FInst m => [m] | FPtr _ _ => [] end.

(** What the deallocation of an object frees: the capsule frees the data
    (cwrapper.c lines 229-232), the destructor calls __del__ and frees the
    instance unless is_alias is set (c_to_python_wrapper.py lines 1524-1537). *)
Definition free_own (p : pobj) (st : state) : res state :=
  match p with
  | PArr d true _ | PCap d => free d st
  | PArr _ false _ | PInst _ true _ => Ok st
  | PInst i false _ =>
      match mems st i with
      | Some (CStruct fs) => free_all (flat_map owned_field fs ++ [i]) st
      | _ => Fault
      end
  end.

(** A new Python object has one reference, held by whoever made it. *)
Definition new_obj (p : pobj) (st : state) : nat * state :=
  (nobj st,
   St (upd (objs st) (nobj st) (Some (Obj 1 p))) (S (nobj st)) (mems st) (nmem st) (names st)).

(** Py_INCREF. *)
Definition incref (o : nat) (st : state) : res state :=
  match objs st o with
  | Some ob => Ok (set_objs st (upd (objs st) o (Some (Obj (S (rc ob)) (pay ob)))))
  | None => Fault
  end.

(** Py_DECREF of each of the objects in the list, and of the references of the
    objects which are then destroyed. *)
Fixpoint release (fuel : nat) (work : list nat) (st : state) : res state :=
  match work with
  | [] => Ok st
  | o :: work' =>
      match fuel with
      | 0 => Fuel
      | S k =>
          match objs st o with
          | None => Fault
          | Some ob =>
              match rc ob with
              | 0 => Fault
              | 1 =>
                  bind (free_own (pay ob) (set_objs st (upd (objs st) o None)))
                       (release k (kids (pay ob) ++ work'))
              | S n =>
                  release k work' (set_objs st (upd (objs st) o (Some (Obj n (pay ob)))))
              end
          end
      end
  end.

Fixpoint count_rc (f : nat -> option obj) (n : nat) : nat :=
  match n with
  | 0 => 0
  | S k => count_rc f k + match f k with Some ob => rc ob | None => 0 end
  end.

Definition decref (o : nat) (st : state) : res state :=
  release (count_rc (objs st) (nobj st)) [o] st.

(** PyList_Append to referenced_objects (lines 887-914 and 962-976). *)
Definition add_ref (self o : nat) (st : state) : res state :=
  bind (incref o st) (fun st =>
    match objs st self with
    | Some (Obj c (PInst i al refs)) =>
        Ok (set_objs st (upd (objs st) self (Some (Obj c (PInst i al (refs ++ [o]))))))
    | Some _ => Reject
    | None => Fault
    end).

Fixpoint add_refs (self : nat) (l : list nat) (st : state) : res state :=
  match l with
  | [] => Ok st
  | o :: l' => bind (add_ref self o st) (add_refs self l')
  end.

(** An object for an instance, with the objects in its list of references (lines
    1307-1312 and 962-976).  Simplification: the list is filled when the object
    is made. *)
Fixpoint increfs (l : list nat) (st : state) : res state :=
  match l with
  | [] => Ok st
  | o :: l' => bind (incref o st) (increfs l')
  end.

Definition new_pinst (m : nat) (alias : bool) (refs : list nat) (st : state) : res (nat * state) :=
  bind (increfs refs st) (fun st => Ok (new_obj (PInst m alias refs) st)).

(** The result is handed to the user. *)
Definition give (o : nat) (st : state) : state := set_names st (o :: names st).

(** ** What a compiled function does *)

(** A value which a pointer can be set to: an argument or one of its attributes. *)
Inductive src :=
| SArg (i : nat)
| SAttr (i j : nat).

Definition src_arg (s : src) : nat := match s with SArg i | SAttr i _ => i end.

Inductive stmt :=
| SPoint (i j : nat) (s : src)        (* the attribute j of argument i points at s *)
| SRealloc (i j : nat).               (* the array which is attribute j is replaced *)

Inductive kind := KArr | KInst | KPtr (arr : bool).

Inductive result :=
| RNone
| RSelf                                              (* __iadd__ and the others *)
| RNewArr
| RPtrArr (srcs : list src) (choice : nat)           (* one of several pointers *)
| RNewInst (c : list kind) (inits : list (nat * src))
| RPtrInst (srcs : list src) (choice : nat).

Record func := Fn { bound : bool; body : list stmt; out : result }.

(** semantic.py lines 917-928: an argument which self points at when the method
    ends.  Lines 995-999: setting an attribute of self counts as setting self. *)
Definition persistent (f : func) (i : nat) : bool :=
  bound f && negb (i =? 0)
  && existsb (fun s => match s with
                       | SPoint 0 _ s' => src_arg s' =? i
                       | _ => false
                       end) (body f).

(** semantic.py lines 6636-6648: the arguments the result may point at. *)
Definition targets (srcs : list src) : list nat := map src_arg srcs.

(** The memory of an argument, and whether it is an array: the data of an array,
    the instance of an object (c_to_python_wrapper.py lines 3129-3200). *)
Definition mem_of (st : state) (o : nat) : res (nat * bool) :=
  match objs st o with
  | None => Fault
  | Some (Obj _ (PArr d _ _)) => Ok (d, true)
  | Some (Obj _ (PInst i _ _)) => Ok (i, false)
  | Some (Obj _ (PCap _)) => Reject
  end.

(** Access to the attributes of an instance. *)
Definition fields_of (st : state) (o : nat) : res (nat * list field) :=
  match objs st o with
  | None => Fault
  | Some (Obj _ (PInst i _ _)) =>
      match mems st i with
      | None => Fault
      | Some (CStruct fs) => Ok (i, fs)
      | Some CData => Reject
      end
  | Some _ => Reject
  end.

Definition field_mem (f : option field) : res (nat * bool) :=
  match f with
  | Some (FArr m) => Ok (m, true)
  | Some (FInst m) => Ok (m, false)
  | Some (FPtr a (Some m)) => Ok (m, a)
  | Some (FPtr _ None) | None => Reject
  end.

Definition nth_obj (args : list nat) (i : nat) : res nat :=
  match nth_error args i with Some o => Ok o | None => Reject end.

Definition resolve (st : state) (args : list nat) (s : src) : res (nat * bool) :=
  match s with
  | SArg i => bind (nth_obj args i) (mem_of st)
  | SAttr i j =>
      bind (nth_obj args i) (fun o =>
        bind (fields_of st o) (fun '(_, fs) => field_mem (nth_error fs j)))
  end.

Fixpoint set_nth {A} (l : list A) (k : nat) (a : A) : list A :=
  match l, k with
  | [], _ => []
  | _ :: r, 0 => a :: r
  | x :: r, S k' => x :: set_nth r k' a
  end.

(** A pointer attribute of the instance in memory i is set. *)
Definition point (i : nat) (fs : list field) (j : nat) (tgt : nat * bool) (st : state)
  : res state :=
  match nth_error fs j with
  | Some (FPtr a _) =>
      if Bool.eqb a (snd tgt)
      then Ok (set_mems st (upd (mems st) i (Some (CStruct (set_nth fs j (FPtr a (Some (fst tgt))))))))
      else Reject
  | _ => Reject
  end.

Definition exec1 (args : list nat) (s : stmt) (st : state) : res state :=
  match s with
  | SPoint i j s' =>
      bind (nth_obj args i) (fun o =>
        bind (fields_of st o) (fun '(m, fs) =>
          bind (resolve st args s') (fun tgt => point m fs j tgt st)))
  | SRealloc i j =>
      bind (nth_obj args i) (fun o =>
        bind (fields_of st o) (fun '(m, fs) =>
          match nth_error fs j with
          | Some (FArr old) =>
              bind (free old st) (fun st =>
                let (new, st) := new_mem CData st in
                Ok (set_mems st (upd (mems st) m (Some (CStruct (set_nth fs j (FArr new)))))))
          | _ => Reject
          end))
  end.

Fixpoint exec (args : list nat) (l : list stmt) (st : state) : res state :=
  match l with
  | [] => Ok st
  | s :: l' => bind (exec1 args s st) (exec args l')
  end.

(** The memory of a new instance and of the attributes it owns. *)
Fixpoint build (c : list kind) (st : state) : list field * state :=
  match c with
  | [] => ([], st)
  | k :: c' =>
      let (f, st) :=
        match k with
        | KArr => let (m, st) := new_mem CData st in (FArr m, st)
        | KInst => let (m, st) := new_mem (CStruct []) st in (FInst m, st)
        | KPtr a => (FPtr a None, st)
        end in
      let (fs, st) := build c' st in
      (f :: fs, st)
  end.

Definition new_inst (c : list kind) (st : state) : nat * state :=
  let (fs, st) := build c st in new_mem (CStruct fs) st.

(** The pointers which a function sets in the instance it returns. *)
Fixpoint init_ptrs (args : list nat) (m : nat) (l : list (nat * src)) (st : state) : res state :=
  match l with
  | [] => Ok st
  | (j, s) :: l' =>
      match mems st m with
      | Some (CStruct fs) =>
          bind (resolve st args s) (fun tgt =>
            bind (point m fs j tgt st) (init_ptrs args m l'))
      | _ => Fault
      end
  end.

(** ** The wrapper of a function *)

Inductive lang := LC | LFortran.

(** The Python object which gives access to other memory: lines 2526-2531 and
    2553 for a getter, 3934-3949 for a function.  In C the memory for an
    instance is allocated before the pointer to it is replaced (lines
    3945-3948). *)
Definition setup_inst (L : lang) (st : state) : state :=
  match L with LC => snd (new_mem (CStruct []) st) | LFortran => st end.

(** Lines 2192-2223: the wrapped results. *)
Definition wrap_result (args : list nat) (r : result) (st : state) : res state :=
  match r with
  | RNone => Ok st
  | RSelf =>
      bind (nth_obj args 0) (fun o => bind (incref o st) (fun st => Ok (give o st)))
  | RNewArr =>
      let (m, st) := new_mem CData st in
      let (c, st) := new_obj (PCap m) st in
      let (a, st) := new_obj (PArr m false (Some c)) st in
      Ok (give a st)
  | RPtrArr srcs k =>
      match targets srcs, nth_error srcs k with
      | [t], Some s =>
          bind (resolve st args s) (fun '(m, arr) =>
            ret_if arr
              (bind (nth_obj args t) (fun o =>
                 bind (incref o st) (fun st =>
                   let (a, st) := new_obj (PArr m false (Some o)) st in
                   Ok (give a st)))))
      | _, _ => Reject                (* lines 1707-1716: no wrapper is made *)
      end
  | RNewInst c inits =>
      let (m, st) := new_inst c st in
      bind (init_ptrs args m inits st) (fun st =>
        let (o, st) := new_obj (PInst m false []) st in
        Ok (give o st))
  | RPtrInst srcs k =>
      match nth_error srcs k with
      | Some s =>
          bind (resolve st args s) (fun '(m, arr) =>
            ret_if (negb arr)
              (let ts := flat_map (fun t => match nth_error args t with
                                            | Some a => [a] | None => [] end)
                                  (targets srcs) in
               bind (new_pinst m true ts st) (fun '(o, st) => Ok (give o st))))
      | None => Reject
      end
  end.

Definition is_ptr_inst (r : result) : bool :=
  match r with RPtrInst _ _ => true | _ => false end.

Definition saved (f : func) (args : list nat) : list nat :=
  flat_map (fun i => if persistent f i
                     then match nth_error args i with Some o => [o] | None => [] end
                     else [])
           (seq 0 (length args)).

(** Lines 2192-2239: the setup of the result, the references to the arguments,
    the call and the result. *)
Definition call (L : lang) (f : func) (args : list nat) (st : state) : res state :=
  let st := if is_ptr_inst (out f) then setup_inst L st else st in
  bind (match args with
        | self :: _ => if bound f then add_refs self (saved f args) st else Ok st
        | [] => Ok st
        end) (fun st =>
    bind (exec args (body f) st) (wrap_result args (out f))).

(** ** What the user does *)

Inductive op :=
| NewArr                              (* x = np.zeros(n) *)
| View (o : nat)                      (* x[1:] *)
| New (c : list kind) (f : func) (args : list nat)   (* A(...) *)
| Call (f : func) (args : list nat)   (* f(...), a.m(...) *)
| Get (o j : nat)                     (* a.x *)
| Set_ (o j v : nat)                  (* a.x = v *)
| Copy (o : nat)                      (* b = a *)
| Del (o : nat).                      (* del a *)

Definition has (st : state) (o : nat) : bool := existsb (Nat.eqb o) (names st).

Fixpoint remove1 (o : nat) (l : list nat) : list nat :=
  match l with
  | [] => []
  | x :: r => if x =? o then r else x :: remove1 o r
  end.

(** Lines 2508-2553: the getter.  The flag is_alias is the one of the attribute
    (line 3935). *)
Definition getter (L : lang) (o j : nat) (st : state) : res state :=
  bind (fields_of st o) (fun '(_, fs) =>
    match nth_error fs j with
    | Some (FArr m) | Some (FPtr true (Some m)) =>
        bind (incref o st) (fun st =>
          let (a, st) := new_obj (PArr m false (Some o)) st in
          Ok (give a st))
    | Some (FInst m) =>
        let st := setup_inst L st in
        bind (new_pinst m false [o] st) (fun '(r, st) => Ok (give r st))
    | Some (FPtr false (Some m)) =>
        let st := setup_inst L st in
        bind (new_pinst m true [o] st) (fun '(r, st) => Ok (give r st))
    | _ => Reject
    end).

(** Lines 2585-2644: the setter. *)
Definition setter (o j v : nat) (st : state) : res state :=
  bind (fields_of st o) (fun '(m, fs) =>
    bind (mem_of st v) (fun tgt =>
      bind (add_ref o v st) (fun st => point m fs j tgt st))).

Definition step (L : lang) (p : op) (st : state) : res state :=
  match p with
  | NewArr =>
      let (m, st) := new_mem CData st in
      let (a, st) := new_obj (PArr m true None) st in
      Ok (give a st)
  | View o =>
      ret_if (has st o)
        (bind (mem_of st o) (fun '(m, arr) =>
           ret_if arr
             (bind (incref o st) (fun st =>
                let (a, st) := new_obj (PArr m false (Some o)) st in
                Ok (give a st)))))
  | New c f args =>
      ret_if (forallb (has st) args && bound f)
        (let (m, st) := new_inst c st in
         let (o, st) := new_obj (PInst m false []) st in
         call L (Fn true (body f) RNone) (o :: args) (give o st))
  | Call f args => ret_if (forallb (has st) args) (call L f args st)
  | Get o j => ret_if (has st o) (getter L o j st)
  | Set_ o j v => ret_if (has st o && has st v) (setter o j v st)
  | Copy o => ret_if (has st o) (bind (incref o st) (fun st => Ok (give o st)))
  | Del o => ret_if (has st o) (decref o (set_names st (remove1 o (names st))))
  end.

(** A call which cannot be made changes nothing. *)
Fixpoint run (L : lang) (ops : list op) (st : state) : res state :=
  match ops with
  | [] => Ok st
  | p :: ops' =>
      match step L p st with
      | Ok st' => run L ops' st'
      | Reject => run L ops' st
      | Fault => Fault
      | Fuel => Fuel
      end
  end.

Definition empty : state := St (fun _ => None) 0 (fun _ => None) 0 [].
