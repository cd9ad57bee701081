(** Model of how classes come into being: the allocation of the system classes, the
    loading of class files, the assembly of a class and its metaclass, and the
    installation of primitives.

    Modelled: src/som/vm/universe.py (_initialize_object_system 213-314,
    new_metaclass_class, new_system_class, _initialize_system_class, get_global,
    set_global, _make_block_class, load_class, _load_primitives, _load_system_class,
    _load_class, load_shell_class), src/som/compiler/class_generation_context.py
    (set_super_class, assemble, assemble_system_class), src/som/compiler/parser.py
    (_superclass 120-137 and its place in classdef 80-118),
    src/som/compiler/sourcecode_compiler.py, src/som/vmobjects/clazz.py (fields and
    invokables), src/som/primitives/known.py and primitives.py (installation).

    Simplifications: a class is a number, the index in the list of all classes
    created so far.  The text of a class file is replaced by what the parser reads
    from it ([file]); the methods are left abstract (a type with a selector and a
    flag for primitives).  Method lookup and its cache are in LkpModel.v; field
    layouts beyond their number of slots are in FldModel.v. *)
From Coq Require Import Bool String List Ascii Arith Lia.
From Verif Require Import Base LexModel ParseModel.
Import ListNotations.

Definition t_Object := str "Object".
Definition t_nil := str "nil".
Definition t_class_suffix := str " class".

(** A method as found in a class: written in SOM, installed by the VM for the class
    of that name, or the value primitive of blocks with [n] arguments. *)
Inductive code (M : Type) := Written (m : M) | Builtin (cls sel : text) | BlockValue (n : nat).
Arguments Written {M} m.
Arguments Builtin {M} cls sel.
Arguments BlockValue {M} n.

(** An invokable in the table of a class, and its holder (set_holder). *)
Record entry (M : Type) := { e_code : code M; e_holder : nat }.
Arguments e_code {M} e.
Arguments e_holder {M} e.

(** class Class, vmobjects/clazz.py 8-29.  [k_class] is _object_layout.for_class and
    [k_slots] the number of fields of that layout: the object's own storage, fixed
    when the layout was assigned.  [k_inst] is the number of fields of
    _layout_for_instances. *)
Record kls (M : Type) := {
  k_name : option text; k_super : option nat; k_class : option nat; k_slots : nat;
  k_fields : option (list text); k_inst : nat;
  k_table : option (list (text * entry M)); k_prims : bool }.
Arguments k_name {M} k.
Arguments k_super {M} k.
Arguments k_class {M} k.
Arguments k_slots {M} k.
Arguments k_fields {M} k.
Arguments k_inst {M} k.
Arguments k_table {M} k.
Arguments k_prims {M} k.
Arguments Build_kls {M}.

(** The value of a global: a class, or another object given by its class and, for
    legibility, a label. *)
Inductive gval := GCls (c : nat) | GObj (label : text) (c : nat).

(** The universe: the classes created so far and the table of globals (name ->
    Assoc); an association may hold None (universe.py 424-427 with result None). *)
Record univ (M : Type) := { u_cls : list (kls M); u_globs : list (text * option gval) }.
Arguments u_cls {M} u.
Arguments u_globs {M} u.
Arguments Build_univ {M}.

(** What the parser makes of a class file: a class definition; a text that stops
    before the superclass is loaded; or one that fails after it. *)
Inductive file (M : Type) := Good (c : classdef M) | BadHead | BadBody (sup : option text).
Arguments Good {M} c.
Arguments BadHead {M}.
Arguments BadBody {M} sup.

(** Python dict / OrderedDict assignment and get, keyed by interned symbols. *)
Fixpoint tset {A} (d : list (text * A)) (n : text) (v : A) : list (text * A) :=
  match d with
  | [] => [(n, v)]
  | (m, w) :: r => if text_eqb m n then (n, v) :: r else (m, w) :: tset r n v
  end.
Fixpoint tget {A} (d : list (text * A)) (n : text) : option A :=
  match d with
  | [] => None
  | (m, w) :: r => if text_eqb m n then Some w else tget r n
  end.

Section Classes.
Variable M : Type.
(** get_signature and is_primitive of a method. *)
Variable sel : M -> text.
Variable is_prim : M -> bool.
(** primitives/known.py 85-90: the primitives installed for a class of that name, in
    order; [true] marks those of the class side (_install_class_primitive). *)
Variable known : text -> option (list (bool * text)).
(** Universe.exit (universe.py 104-108): with avoid_exit the call returns. *)
Variable avoid : bool.
(** The directories of the class path, each with its files. *)
Variable path : list (text -> option (file M)).

Notation univ := (univ M).
Notation kls := (kls M).

(** A step: it may fail, and the universe keeps what was done before. *)
Definition comp (A : Type) := univ -> res A * univ.
Definition ret {A} (a : A) : comp A := fun u => (Ok a, u).
Definition fail {A} (e : exn) : comp A := fun u => (Err e, u).
Definition andthen {A B} (x : comp A) (f : A -> comp B) : comp B :=
  fun u => let r := x u in
           match fst r with Ok a => f a (snd r) | Err e => (Err e, snd r) end.
Notation "x <-- a ;; b" := (andthen a (fun x => b))
  (at level 61, a at next level, right associativity).

(** Universe.exit: raises SystemExit unless avoid_exit (universe.py 104-108). *)
Definition exit : comp unit := if avoid then ret tt else fail PyException.

(** get_global (universe.py 369-376): absent and None are the same to the caller. *)
Definition glob (u : univ) (n : text) : option gval :=
  match tget (u_globs u) n with Some (Some v) => Some v | _ => None end.
(** set_global (universe.py 382-383). *)
Definition set_glob (n : text) (v : option gval) : comp unit :=
  fun u => (Ok tt, Build_univ (u_cls u) (tset (u_globs u) n v)).

Definition get (i : nat) : comp kls :=
  fun u => match nth_error (u_cls u) i with Some k => (Ok k, u) | None => (Err UndefinedBehaviour, u) end.
Definition the {A} (o : option A) : comp A :=
  match o with Some a => ret a | None => fail AttributeError end.

Fixpoint upd (l : list kls) (i : nat) (f : kls -> kls) : list kls :=
  match l, i with
  | [], _ => []
  | k :: r, O => f k :: r
  | k :: r, S j => k :: upd r j f
  end.
Definition edit (i : nat) (f : kls -> kls) : comp unit :=
  fun u => (Ok tt, Build_univ (upd (u_cls u) i f) (u_globs u)).

(** Class(n, obj_class) (clazz.py 18-29): a fresh object, nothing set but the
    layouts. *)
Definition blank (n : nat) (c : option nat) (slots : nat) : kls :=
  Build_kls None None c slots None n None false.
Definition alloc (k : kls) : comp nat :=
  fun u => (Ok (length (u_cls u)), Build_univ (u_cls u ++ [k]) (u_globs u)).

(** The setters of clazz.py 34-44 and object_without_fields.py 19-22. *)
Definition set_super (i s : nat) : comp unit :=
  edit i (fun k => Build_kls (k_name k) (Some s) (k_class k) (k_slots k) (k_fields k) (k_inst k) (k_table k) (k_prims k)).
Definition set_class (i c : nat) : comp unit :=
  kc <-- get c ;;
  edit i (fun k => Build_kls (k_name k) (k_super k) (Some c) (k_inst kc) (k_fields k) (k_inst k) (k_table k) (k_prims k)).
Definition set_name (i : nat) (n : text) : comp unit :=
  edit i (fun k => Build_kls (Some n) (k_super k) (k_class k) (k_slots k) (k_fields k) (k_inst k) (k_table k) (k_prims k)).
(** set_instance_fields (clazz.py 49-59). *)
Definition set_fields (i : nat) (fs : list text) : comp unit :=
  edit i (fun k => Build_kls (k_name k) (k_super k) (k_class k) (k_slots k) (Some fs) (length fs) (k_table k) (k_prims k)).
(** set_instance_invokables (clazz.py 74-83). *)
Definition set_table (i : nat) (t : list (text * entry M)) (b : bool) : comp unit :=
  k <-- get i ;;
  match t, k_table k with
  | [], Some _ => fail AssertionError
  | [], None =>
    edit i (fun k => Build_kls (k_name k) (k_super k) (k_class k) (k_slots k) (k_fields k) (k_inst k) (k_table k) b)
  | _, _ =>
    edit i (fun k => Build_kls (k_name k) (k_super k) (k_class k) (k_slots k) (k_fields k) (k_inst k) (Some t) b)
  end.
(** add_primitive (clazz.py 124-142); the warning is not modelled. *)
Definition add_primitive (i : nat) (n : text) (c : code M) : comp unit :=
  edit i (fun k => Build_kls (k_name k) (k_super k) (k_class k) (k_slots k) (k_fields k) (k_inst k)
    (Some (tset (match k_table k with Some t => t | None => [] end) n {| e_code := c; e_holder := i |})) (k_prims k)).

(** The tables collected by add_instance_method / add_class_method
    (class_generation_context.py 51-62); set_holder of clazz.py 82-83. *)
Definition methods_table (h : nat) (ms : list M) : list (text * entry M) :=
  fold_left (fun d m => tset d (sel m) {| e_code := Written m; e_holder := h |}) ms [].
Definition some_table (t : list (text * entry M)) : option (list (text * entry M)) :=
  match t with [] => None | _ => Some t end.

(** _superclass (parser.py 120-137) and set_super_class
    (class_generation_context.py 36-49): the superclass with the fields of its two
    sides. *)
Definition superclass (ld : text -> comp (option gval)) (s : option text)
  : comp (option (nat * list text * list text)) :=
  let n := match s with Some n => n | None => t_Object end in
  if text_eqb n t_nil then ret None
  else
    v <-- ld n ;;
    match v with
    | None => fail PyException
    | Some (GObj _ _) => fail AttributeError
    | Some (GCls i) =>
      k <-- get i ;;
      fs <-- the (k_fields k) ;;
      mi <-- the (k_class k) ;;
      mk <-- get mi ;;
      cfs <-- the (k_fields mk) ;;
      ret (Some (i, fs, cfs))
    end.

(** assemble (class_generation_context.py 87-118).  [meta] is metaclass_class. *)
Definition assemble (meta : nat) (sup : option (nat * list text * list text)) (c : classdef M)
  : comp nat :=
  mk <-- get meta ;;
  match sup with
  | None => fail AttributeError        (* None.get_class, line 104 *)
  | Some (s, fs, cfs) =>
    sk <-- get s ;;
    smc <-- the (k_class sk) ;;
    fun u =>
      let mi := length (u_cls u) in
      let ifields := fs ++ c_fields _ c in
      let cfields := cfs ++ c_class_fields _ c in
      (x <-- alloc {| k_name := Some (c_name _ c ++ t_class_suffix); k_super := Some smc;
                      k_class := Some meta; k_slots := k_inst mk;
                      k_fields := Some cfields; k_inst := length cfields;
                      k_table := some_table (methods_table mi (c_class_methods _ c));
                      k_prims := existsb is_prim (c_class_methods _ c) |} ;;
       alloc {| k_name := Some (c_name _ c); k_super := Some s;
                k_class := Some x; k_slots := length cfields;
                k_fields := Some ifields; k_inst := length ifields;
                k_table := some_table (methods_table (S mi) (c_methods _ c));
                k_prims := existsb is_prim (c_methods _ c) |}) u
  end.

(** assemble_system_class (class_generation_context.py 120-131). *)
Definition assemble_system (i : nat) (sup : option (nat * list text * list text)) (c : classdef M)
  : comp nat :=
  let '(fs, cfs) := match sup with Some (_, fs, cfs) => (fs, cfs) | None => ([], []) end in
  _ <-- set_table i (methods_table i (c_methods _ c)) (existsb is_prim (c_methods _ c)) ;;
  _ <-- set_fields i (fs ++ c_fields _ c) ;;
  k <-- get i ;;
  mi <-- the (k_class k) ;;
  _ <-- set_table mi (methods_table mi (c_class_methods _ c)) (existsb is_prim (c_class_methods _ c)) ;;
  _ <-- set_fields mi (cfs ++ c_class_fields _ c) ;;
  ret i.

(** _compile (sourcecode_compiler.py 47-58) with classdef (parser.py 80-118). *)
Definition compile (meta : nat) (ld : text -> comp (option gval)) (sys : option nat) (f : file M)
  : comp nat :=
  match f with
  | BadHead => fail PyException
  | BadBody s => _ <-- superclass ld s ;; fail PyException
  | Good c =>
    sup <-- superclass ld (c_super _ c) ;;
    match sys with
    | None => assemble meta sup c
    | Some i => assemble_system i sup c
    end
  end.

(** The loop over the class path in _load_class (universe.py 451-471): the first
    directory with such a file decides. *)
Fixpoint find (p : list (text -> option (file M))) (n : text) : option (file M) :=
  match p with
  | [] => None
  | d :: r => match d n with Some f => Some f | None => find r n end
  end.

(** compile_class_from_file (sourcecode_compiler.py 14-38). *)
Definition load_file (meta : nat) (ld : text -> comp (option gval)) (n : text) (sys : option nat)
  : comp (option nat) :=
  match find path n with
  | None => ret None
  | Some f =>
    i <-- compile meta ld sys f ;;
    k <-- get i ;;
    cn <-- the (k_name k) ;;
    _ <-- (if text_eqb n cn then ret tt else exit) ;;
    ret (Some i)
  end.

(** load_primitives (clazz.py 178-191), install_primitives (primitives/bc/…,
    primitives/ast/…): _install_instance_primitive and _install_class_primitive. *)
Fixpoint install (i mi : nat) (n : text) (l : list (bool * text)) : comp unit :=
  match l with
  | [] => ret tt
  | (cside, s) :: r =>
    _ <-- add_primitive (if cside : bool then mi else i) s (Builtin n s) ;;
    install i mi n r
  end.
Definition load_primitives (i : nat) : comp unit :=
  k <-- get i ;;
  n <-- the (k_name k) ;;
  match known n with
  | None => ret tt
  | Some l => mi <-- the (k_class k) ;; install i mi n l
  end.
(** _load_primitives (universe.py 429-434), needs_primitives (clazz.py 169-176). *)
Definition maybe_primitives (r : option nat) (sys : bool) : comp unit :=
  match r with
  | None => ret tt
  | Some i =>
    k <-- get i ;;
    mi <-- the (k_class k) ;;
    mk <-- get mi ;;
    if k_prims k || k_prims mk || sys then load_primitives i else ret tt
  end.

(** load_class (universe.py 417-427); the fuel bounds the length of the chain of
    superclasses. *)
Fixpoint load_class (fuel : nat) (meta : nat) (n : text) : comp (option gval) :=
  match fuel with
  | O => fail OutOfFuel
  | S k => fun u =>
    match glob u n with
    | Some v => (Ok (Some v), u)
    | None =>
      (r <-- load_file meta (load_class k meta) n None ;;
       _ <-- maybe_primitives r false ;;
       _ <-- set_glob n (option_map GCls r) ;;
       ret (option_map GCls r)) u
    end
  end.

(** load_shell_class (universe.py 473-480): a class from a text, not entered in the
    globals and without primitives. *)
Definition load_shell (fuel meta : nat) (f : file M) : comp nat :=
  compile meta (load_class fuel meta) None f.

(** new_metaclass_class, new_system_class (universe.py 332-348). *)
Definition new_metaclass_class : comp nat :=
  mi <-- alloc (blank 0 None 0) ;;
  i <-- alloc (blank 0 (Some mi) 0) ;;
  _ <-- set_class mi i ;;
  ret i.
Definition new_system_class (meta : nat) : comp nat :=
  mi <-- alloc (blank 0 None 0) ;;
  i <-- alloc (blank 0 (Some mi) 0) ;;
  _ <-- set_class mi meta ;;
  ret i.
(** _initialize_system_class (universe.py 350-367). *)
Definition init_system_class (class_class : nat) (i : nat) (s : option nat) (n : text) : comp unit :=
  k <-- get i ;;
  mi <-- the (k_class k) ;;
  _ <-- match s with
        | Some s =>
          sk <-- get s ;;
          smi <-- the (k_class sk) ;;
          _ <-- set_super i s ;;
          set_super mi smi
        | None => set_super mi class_class
        end ;;
  _ <-- set_fields i [] ;;
  _ <-- set_fields mi [] ;;
  _ <-- set_name i n ;;
  _ <-- set_name mi (n ++ t_class_suffix) ;;
  set_glob n (Some (GCls i)).
(** _load_system_class (universe.py 436-449). *)
Definition load_system_class (fuel meta : nat) (i : nat) : comp unit :=
  k <-- get i ;;
  n <-- the (k_name k) ;;
  r <-- load_file meta (load_class fuel meta) n (Some i) ;;
  _ <-- (match r with None => exit | Some _ => ret tt end) ;;
  maybe_primitives r true.
(** _make_block_class (universe.py 400-415). *)
Definition value_selector (n : nat) : text :=
  match n with
  | 1 => str "value"
  | 2 => str "value:"
  | _ => str "value:with:"
  end.
Definition make_block_class (fuel meta : nat) (n : text) (k : nat) : comp nat :=
  r <-- load_file meta (load_class fuel meta) n None ;;
  i <-- the r ;;
  _ <-- add_primitive i (value_selector k) (BlockValue k) ;;
  _ <-- set_glob n (Some (GCls i)) ;;
  ret i.

(** The classes of the VM, in the order of _initialize_object_system. *)
Record system := {
  s_meta : nat; s_object : nat; s_nil : nat; s_class : nat; s_array : nat; s_symbol : nat;
  s_method : nat; s_integer : nat; s_primitive : nat; s_string : nat; s_double : nat }.

(** universe.py 214-244: allocation. *)
Definition allocate : comp system :=
  m <-- new_metaclass_class ;;
  o <-- new_system_class m ;;
  n <-- new_system_class m ;;
  c <-- new_system_class m ;;
  a <-- new_system_class m ;;
  y <-- new_system_class m ;;
  e <-- new_system_class m ;;
  i <-- new_system_class m ;;
  p <-- new_system_class m ;;
  s <-- new_system_class m ;;
  d <-- new_system_class m ;;
  ret {| s_meta := m; s_object := o; s_nil := n; s_class := c; s_array := a; s_symbol := y;
         s_method := e; s_integer := i; s_primitive := p; s_string := s; s_double := d |}.
(** universe.py 246-261: names and superclasses. *)
Definition initialize (s : system) : comp unit :=
  let init := init_system_class (s_class s) in
  _ <-- init (s_object s) None (str "Object") ;;
  _ <-- init (s_class s) (Some (s_object s)) (str "Class") ;;
  _ <-- init (s_meta s) (Some (s_class s)) (str "Metaclass") ;;
  _ <-- init (s_nil s) (Some (s_object s)) (str "Nil") ;;
  _ <-- init (s_array s) (Some (s_object s)) (str "Array") ;;
  _ <-- init (s_method s) (Some (s_object s)) (str "Method") ;;
  _ <-- init (s_integer s) (Some (s_object s)) (str "Integer") ;;
  _ <-- init (s_primitive s) (Some (s_object s)) (str "Primitive") ;;
  _ <-- init (s_string s) (Some (s_object s)) (str "String") ;;
  _ <-- init (s_symbol s) (Some (s_string s)) (str "Symbol") ;;
  init (s_double s) (Some (s_object s)) (str "Double").
(** universe.py 263-274: methods and fields of the system classes. *)
Fixpoint load_all (fuel meta : nat) (l : list nat) : comp unit :=
  match l with
  | [] => ret tt
  | i :: r => _ <-- load_system_class fuel meta i ;; load_all fuel meta r
  end.
Definition load_order (s : system) : list nat :=
  [s_object s; s_class s; s_meta s; s_nil s; s_array s; s_method s; s_string s; s_symbol s;
   s_integer s; s_primitive s; s_double s].
(** load_class where the answer is used as a class at once. *)
Definition need_class (fuel meta : nat) (n : text) : comp nat :=
  v <-- load_class fuel meta n ;;
  match v with Some (GCls i) => ret i | _ => fail AttributeError end.
(** universe.py 276-309: Block, the Booleans, System. *)
Definition specials (fuel : nat) (s : system) : comp unit :=
  let meta := s_meta s in
  b <-- load_class fuel meta (str "Block") ;;
  t <-- need_class fuel meta (str "True") ;;
  _ <-- load_primitives t ;;
  f <-- need_class fuel meta (str "False") ;;
  _ <-- load_primitives f ;;
  y <-- need_class fuel meta (str "System") ;;
  _ <-- set_glob (str "nil") (Some (GObj (str "nil") (s_nil s))) ;;
  _ <-- set_glob (str "true") (Some (GObj (str "true") t)) ;;
  _ <-- set_glob (str "false") (Some (GObj (str "false") f)) ;;
  _ <-- set_glob (str "system") (Some (GObj (str "system") y)) ;;
  _ <-- set_glob (str "System") (Some (GCls y)) ;;
  _ <-- set_glob (str "Block") b ;;
  _ <-- set_glob (str "Nil") (Some (GCls (s_nil s))) ;;
  _ <-- set_glob (str "True") (Some (GCls t)) ;;
  _ <-- set_glob (str "False") (Some (GCls f)) ;;
  _ <-- make_block_class fuel meta (str "Block1") 1 ;;
  _ <-- make_block_class fuel meta (str "Block2") 2 ;;
  _ <-- make_block_class fuel meta (str "Block3") 3 ;;
  match b with Some (GCls _) => ret tt | _ => fail AttributeError end.
(** _initialize_object_system (universe.py 213-314). *)
Definition start (fuel : nat) : comp system :=
  s <-- allocate ;;
  _ <-- initialize s ;;
  _ <-- load_all fuel (s_meta s) (load_order s) ;;
  _ <-- specials fuel s ;;
  ret s.

(** What a program can do about classes once the VM runs: name a class that is not
    loaded yet (load:, an unknown global, the command line) or hand a class text to
    the shell.  system global:put: is added in PutModel. *)
Inductive request := Load (n : text) | Shell (f : file M).
Definition serve (fuel meta : nat) (q : request) : comp (option gval) :=
  match q with
  | Load n => load_class fuel meta n
  | Shell f => i <-- load_shell fuel meta f ;; ret (Some (GCls i))
  end.
(** A history of requests: the answers, failures included, and the universe after
    it.  A failed request leaves the universe as it was when it failed. *)
Fixpoint run (fuel meta : nat) (qs : list request) (u : univ)
  : list (res (option gval)) * univ :=
  match qs with
  | [] => ([], u)
  | q :: r =>
    let a := serve fuel meta q u in
    let b := run fuel meta r (snd a) in
    (fst a :: fst b, snd b)
  end.
End Classes.
Definition empty {M} : univ M := Build_univ [] [].
