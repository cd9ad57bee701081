(** What a SOM programmer expects of classes, said without the loader: the messages
    class, superclass and name, the fields and methods of a class as its file and the
    files of its superclasses declare them. *)
From Coq Require Import Bool String List Ascii Arith.
From Verif Require Import Base LexModel ParseModel ClsModel.
Import ListNotations.

Section Spec.
Context {M : Type}.
Variable sel : M -> text.
Variable is_prim : M -> bool.
Variable known : text -> option (list (bool * text)).
Variable path : list (text -> option (file M)).

(** * Observing a class *)
Definition class_of (u : univ M) (c : nat) : option nat :=
  match nth_error (u_cls u) c with Some k => k_class k | None => None end.
Definition super_of (u : univ M) (c : nat) : option nat :=
  match nth_error (u_cls u) c with Some k => k_super k | None => None end.
Definition name_of (u : univ M) (c : nat) : option text :=
  match nth_error (u_cls u) c with Some k => k_name k | None => None end.
(** The names of the fields of its instances, and how many slots a new instance has. *)
Definition fields_of (u : univ M) (c : nat) : option (list text) :=
  match nth_error (u_cls u) c with Some k => k_fields k | None => None end.
Definition size_of (u : univ M) (c : nat) : option nat :=
  match nth_error (u_cls u) c with Some k => Some (k_inst k) | None => None end.
(** The slots the class itself has for its class-side fields. *)
Definition own_slots (u : univ M) (c : nat) : option nat :=
  match nth_error (u_cls u) c with Some k => Some (k_slots k) | None => None end.
(** The method a class itself has for a selector. *)
Definition method_of (u : univ M) (c : nat) (s : text) : option (entry M) :=
  match nth_error (u_cls u) c with
  | Some k => match k_table k with Some t => tget t s | None => None end
  | None => None
  end.

(** The classes a program can get at: those with a global name, those answered by a
    request, and their superclasses. *)
Inductive reachable (u : univ M) (answers : list (res (option gval))) : nat -> Prop :=
| by_name n c : glob M u n = Some (GCls c) -> reachable u answers c
| by_answer c : In (Ok (Some (GCls c))) answers -> reachable u answers c
| by_super c s : reachable u answers c -> super_of u c = Some s -> reachable u answers s.

Inductive inherits (u : univ M) : nat -> nat -> Prop :=
| inh_refl c : inherits u c c
| inh_step c s d : super_of u c = Some s -> inherits u s d -> inherits u c d.

(** The parallel hierarchy of classes and metaclasses. *)
Definition well_made (u : univ M) (metaclass object class c : nat) : Prop :=
  exists mc n,
    class_of u c = Some mc /\ class_of u mc = Some metaclass /\
    name_of u c = Some n /\ name_of u mc = Some (n ++ str " class") /\
    match super_of u c with
    | Some s => exists ms, class_of u s = Some ms /\ super_of u mc = Some ms
    | None => c = object /\ super_of u mc = Some class
    end /\
    inherits u c object.

(** * What the files declare *)
Definition super_name (d : classdef M) : text :=
  match c_super M d with Some n => n | None => str "Object" end.
(** The fields of instances and of the class: those of the superclass, then its own. *)
Inductive declares : classdef M -> list text -> list text -> Prop :=
| dec_top d : super_name d = str "nil" -> declares d (c_fields M d) (c_class_fields M d)
| dec_sub d b fi fc :
    super_name d <> str "nil" -> find M path (super_name d) = Some (Good b) ->
    declares b fi fc ->
    declares d (fi ++ c_fields M d) (fc ++ c_class_fields M d).

(** The last method with that selector (a later definition replaces an earlier). *)
Definition written (ms : list M) (s : text) : option M :=
  List.find (fun m => text_eqb (sel m) s) (rev ms).

(** The superclasses the VM itself assigns to its system classes. *)
Definition system_supers : list (text * text) :=
  [(str "Object", str "nil"); (str "Class", str "Object"); (str "Metaclass", str "Class");
   (str "Nil", str "Object"); (str "Array", str "Object"); (str "Method", str "Object");
   (str "String", str "Object"); (str "Symbol", str "String"); (str "Integer", str "Object");
   (str "Primitive", str "Object"); (str "Double", str "Object")].
Definition system_name (n : text) : Prop := In n (map fst system_supers).
(** A class library the VM can start with: the files of the system classes name the
    superclasses the VM gives them. *)
Definition conforming : Prop :=
  forall n s, In (n, s) system_supers ->
  exists d, find M path n = Some (Good d) /\ super_name d = s.

(** The class files define classes of the same name. *)
Definition files_named : Prop := forall n d, find M path n = Some (Good d) -> c_name M d = n.
(** The block classes with a value method of their own. *)
Definition is_block (n : text) : bool :=
  text_eqb n (str "Block1") || text_eqb n (str "Block2") || text_eqb n (str "Block3").
(** Names that start-up binds anew after classes may have been loaded. *)
Definition reserved (n : text) : bool :=
  existsb (text_eqb n) [str "true"; str "false"; str "system"; str "Block1"; str "Block2"; str "Block3"].
(** A library for the VM: conforming, no table of primitives for the block classes
    (primitives/known.py has none), and file names checked or right anyway. *)
Definition library (avoid : bool) : Prop :=
  conforming /\ (avoid = false \/ files_named) /\ (forall n, is_block n = true -> known n = None).

(** The classes whose primitives the VM installs whatever their file says. *)
Definition always (n : text) : bool :=
  existsb (text_eqb n) (map fst system_supers ++ [str "True"; str "False"]).
Definition block_value (n s : text) : option nat :=
  if text_eqb n (str "Block1") && text_eqb s (str "value") then Some 1
  else if text_eqb n (str "Block2") && text_eqb s (str "value:") then Some 2
  else if text_eqb n (str "Block3") && text_eqb s (str "value:with:") then Some 3
  else None.
(** Is there a primitive of the VM for [s] on that side of a class named [n]? *)
Definition has_builtin (n : text) (cside : bool) (s : text) : bool :=
  match known n with
  | Some l => existsb (fun p => Bool.eqb (fst p) cside && text_eqb (snd p) s) l
  | None => false
  end.
(** Does the file ask for primitives? *)
Definition wants_primitives (d : classdef M) : bool :=
  existsb is_prim (c_methods M d) || existsb is_prim (c_class_methods M d).
(** The method for [s] in class [n], whose file reads [d]: the value primitive of
    the block classes; a primitive of the VM, for the classes above and for those
    whose file has a primitive on either side; the last method in the file. *)
Definition expected (n : text) (d : classdef M) (cside : bool) (s : text) : option (code M) :=
  match (if cside then None else block_value n s) with
  | Some k => Some (BlockValue k)
  | None =>
    if (always n || wants_primitives d) && has_builtin n cside s then Some (Builtin n s)
    else option_map Written (written (if cside then c_class_methods M d else c_methods M d) s)
  end.

(** * Requests *)
(** The universe has only grown: every class is exactly what it was, every global
    with a value still has it. *)
Definition only_grown (u u' : univ M) : Prop :=
  (exists more, u_cls u' = u_cls u ++ more) /\
  (forall n v, glob M u n = Some v -> glob M u' n = Some v).

(** The superclass a file names, if reading gets that far. *)
Definition file_super (f : file M) : option text :=
  match f with
  | Good d => Some (super_name d)
  | BadBody (Some n) => Some n
  | BadBody None => Some (str "Object")
  | BadHead => None
  end.
(** The chain of superclasses that have yet to be loaded is finite: it ends with a
    class that is there, one without a file, one whose file names no superclass, or
    with nil. *)
Inductive chain (u : univ M) : text -> nat -> Prop :=
| ch_loaded n v : glob M u n = Some v -> chain u n 0
| ch_missing n : find M path n = None -> chain u n 0
| ch_bad n f : find M path n = Some f -> file_super f = None -> chain u n 0
| ch_nil n f : find M path n = Some f -> file_super f = Some (str "nil") -> chain u n 0
| ch_super n f s k :
    find M path n = Some f -> file_super f = Some s -> chain u s k -> chain u n (S k).
End Spec.
