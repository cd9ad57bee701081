(** Looking at the fields of an object from outside: instVarAt:, instVarAt:put:,
    instVarNamed: and objectSize.
    Models src/som/primitives/object_primitives.py 17-47, get_field_index and
    get_number_of_fields of src/som/vmobjects/object_with_layout.py, lookup_field_index and
    get_instance_field_name of src/som/vmobjects/clazz.py, new_instance of
    src/som/vm/universe.py 324-330 and get_field_index of
    src/som/compiler/class_generation_context.py 79-82, on top of FldModel.v.
    Simplification: a population is one class and its instances. *)
From Coq Require Import ZArith Bool String List.
From Verif Require Import Base NumModel ArrModel FldModel.
Import ListNotations.
Open Scope Z_scope.
Open Scope list_scope.

(** get_embedded_integer, which only Integers have (integer.py 16). *)
Definition embedded_integer (v : value) : res Z :=
  match v with VInt z => Ok z | _ => Err AttributeError end.

(** Indexing a Python list of [n] elements: negative indices count from the end. *)
Definition py_index (n : nat) (z : Z) : res nat :=
  if (0 <=? z) && (z <? Z.of_nat n) then Ok (Z.to_nat z)
  else if (z <? 0) && (- Z.of_nat n <=? z) then Ok (Z.to_nat (z + Z.of_nat n))
  else Err IndexError.

(** universe.py 324-330: an instance of a class without fields is an ObjectWithoutFields,
    which has neither get_field nor set_field nor get_field_index. *)
Definition with_fields (c : cls) (o : obj) : res nat :=
  match length (layout_of c (o_layout o)) with O => Err AttributeError | n => Ok n end.

(** object_primitives.py 36-37 with get_field (object_with_layout.py 169-174).  The index
    goes to storage_locations, a list of as many elements as there are fields. *)
Definition inst_var_at (c : cls) (o : obj) (idx : value) : res value :=
  n <- with_fields c o ;;
  z <- embedded_integer idx ;;
  i <- py_index n (z - 1) ;;
  get_field c o i.
(** object_primitives.py 40-42 with set_field (object_with_layout.py 180-194).  The layout
    transitions use the same index into lists of the same length (object_layout.py 63-98). *)
Definition inst_var_at_put (fuel : nat) (c : cls) (o : obj) (idx v : value) : res (value * (cls * obj)) :=
  n <- with_fields c o ;;
  z <- embedded_integer idx ;;
  i <- py_index n (z - 1) ;;
  p <- set_field fuel c o i v ;;
  Ok (v, p).

(** lookup_field_index (clazz.py 112-122): from the last field down; -1 if there is no such
    field.  Names are interned symbols: nothing but a Symbol is equal to one. *)
Fixpoint lookup_from (names : list string) (name : value) (i : nat) : Z :=
  match i with
  | O => -1
  | S j => match name, nth_error names j with
           | VSym a, Some b => if String.eqb a b then Z.of_nat j else lookup_from names name j
           | _, _ => lookup_from names name j
           end
  end.
Definition lookup_field_index (names : list string) (name : value) : Z :=
  lookup_from names name (length names).
(** object_primitives.py 45-47 *)
Definition inst_var_named (names : list string) (c : cls) (o : obj) (name : value) : res value :=
  n <- with_fields c o ;;
  i <- py_index n (lookup_field_index names name) ;;
  get_field c o i.

(** What the compiler takes for the field of that name in a method
    (class_generation_context.py 74-82: list.index, guarded by has_field). *)
Fixpoint get_field_index (names : list string) (name : string) : option nat :=
  match names with
  | [] => None
  | x :: t => if String.eqb x name then Some O else option_map S (get_field_index t name)
  end.

(** get_number_of_fields: len(self.fields) (object_with_layout.py 144-146), 0 for an
    ObjectWithoutFields (object_without_fields.py 24-25); len(None) is a TypeError. *)
Definition object_size (c : cls) (o : obj) : res value :=
  match length (layout_of c (o_layout o)) with
  | O => Ok (VInt 0)
  | _ => match o_fields o with
         | Some l => Ok (VInt (Z.of_nat (length l)))
         | None => Err TypeError
         end
  end.

(** The messages: the receiver is brought to the latest layout of its class before the
    primitive runs (bc/interpreter.py 398-400, ast/nodes/message/generic_node.py 58-64). *)
Definition w_at (fuel : nat) (w : world) (k : nat) (idx : value) : res (value * world) :=
  w' <- w_send fuel w k ;; o <- get_obj w' k ;;
  v <- inst_var_at (w_cls w') o idx ;; Ok (v, w').
Definition w_at_put (fuel : nat) (w : world) (k : nat) (idx v : value) : res (value * world) :=
  w' <- w_send fuel w k ;; o <- get_obj w' k ;;
  p <- inst_var_at_put fuel (w_cls w') o idx v ;; Ok (fst p, put_obj w' k (snd p)).
Definition w_named (fuel : nat) (names : list string) (w : world) (k : nat) (name : value) : res (value * world) :=
  w' <- w_send fuel w k ;; o <- get_obj w' k ;;
  v <- inst_var_named names (w_cls w') o name ;; Ok (v, w').
Definition w_size (fuel : nat) (w : world) (k : nat) : res (value * world) :=
  w' <- w_send fuel w k ;; o <- get_obj w' k ;;
  v <- object_size (w_cls w') o ;; Ok (v, w').
