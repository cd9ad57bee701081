(** Object fields: layouts shared by the instances of a class, storage locations, and
    the objects that migrate between layouts.
    Models src/som/interpreter/objectstorage/{object_layout,storage_location}.py,
    src/som/vmobjects/object_with_layout.py and the layout part of
    src/som/vmobjects/clazz.py.
    Simplification: [assert] raises AssertionError, as under Python and as in an RPython
    build that keeps assertions. *)
From Coq Require Import ZArith Bool String List Floats.SpecFloat.
From Verif Require Import Base NumModel ArrModel.
Import ListNotations.
Open Scope Z_scope.
Open Scope list_scope.

(** * Layouts *)

(** The storage types Integer, Double and Object of object_layout.py 44-55; "not yet
    written" is Python's None, here [None : option ftype]. *)
Inductive ftype := TInt | TDbl | TObj.
Definition ftype_eqb (a b : ftype) : bool :=
  match a, b with TInt, TInt | TDbl, TDbl | TObj, TObj => true | _, _ => false end.

(** storage_location.py 16-51: a location is determined by its kind and store index
    (the access index of an extension slot is computed from the store index).  [LPrim]
    is create_location_for_long/double (62-107), [LPtr] create_location_for_object
    (110-133), [LUnwritten] create_location_for_unwritten (136-146). *)
Inductive location :=
| LUnwritten
| LPrim (is_double : bool) (store_idx : nat)
| LPtr (store_idx : nat).

(** object_layout.py 26-58: known_types ([None] for all fields by default). *)
Definition layout := list (option ftype).

(** object_layout.py 36-55: the loop handing out locations in field order. *)
Fixpoint assign_locations (types : layout) (next_prim next_ptr : nat) : list location :=
  match types with
  | [] => []
  | Some TInt :: t => LPrim false next_prim :: assign_locations t (S next_prim) next_ptr
  | Some TDbl :: t => LPrim true next_prim :: assign_locations t (S next_prim) next_ptr
  | Some TObj :: t => LPtr next_ptr :: assign_locations t next_prim (S next_ptr)
  | None :: t => LUnwritten :: assign_locations t next_prim next_ptr
  end.
Definition storage_locations (L : layout) : list location := assign_locations L 0 0.

(** object_layout.py 57-58: _prim_locations_used and _ptr_locations_used. *)
Fixpoint prim_locations_used (L : layout) : nat :=
  match L with
  | [] => 0
  | Some TInt :: t | Some TDbl :: t => S (prim_locations_used t)
  | _ :: t => prim_locations_used t
  end.
Fixpoint ptr_locations_used (L : layout) : nat :=
  match L with
  | [] => 0
  | Some TObj :: t => S (ptr_locations_used t)
  | _ :: t => ptr_locations_used t
  end.

(** storage_location.py 12-13 *)
Definition NUMBER_OF_PRIMITIVE_FIELDS : nat := 5.
Definition NUMBER_OF_POINTER_FIELDS : nat := 5.
(** object_layout.py 106-110 and 112-116 (subtraction clipped at 0). *)
Definition used_ext_ptr (L : layout) : nat := ptr_locations_used L - NUMBER_OF_POINTER_FIELDS.
Definition used_ext_prim (L : layout) : nat := prim_locations_used L - NUMBER_OF_PRIMITIVE_FIELDS.

(** storage_location.py 54-59: _get_primitive_field_mask *)
Definition mask (store_idx : nat) : Z :=
  if Nat.ltb store_idx 32 then 2 ^ Z.of_nat store_idx else 0.

(** * Objects *)

(** A primitive slot holds a machine word: an integer, or the bits of a double put
    there by float2longlong.  Simplification: the two are told apart, and reading one as
    the other is an error (the theorems show that it does not happen). *)
Inductive word := WInt (z : Z) | WBits (d : spec_float).

(** object_with_layout.py 19-54.  [o_layout] is the identity of the layout: its number
    in the history of the class's layouts.  [o_field] are _field1.._field5, [o_prim]
    prim_field1..5, [o_prims] prim_fields, [o_fields] fields ([None] is Python's None). *)
Record obj := {
  o_layout : nat;
  o_field : list value;
  o_prim : list word;
  o_prims : list word;
  o_fields : option (list value);
  o_used : Z
}.

(** clazz.py 29, 53-59, 147-162: every layout the class had, in order of creation; the
    last one is _layout_for_instances.  [c_latest] are the is_latest flags. *)
Record cls := { c_layouts : list layout; c_latest : list bool }.
Definition cur_idx (c : cls) : nat := length (c_layouts c) - 1.
Definition layout_of (c : cls) (k : nat) : layout := nth k (c_layouts c) [].
Definition cur_layout (c : cls) : layout := layout_of c (cur_idx c).

(** clazz.py 29 / 53-59: a class with [n] instance fields. *)
Definition new_class (n : nat) : cls := {| c_layouts := [repeat None n]; c_latest := [true] |}.

(** object_with_layout.py 42-54 and 98-110: the extension lists for a layout. *)
Definition ext_fields (L : layout) : option (list value) :=
  if Nat.ltb 0 (used_ext_ptr L) then Some (repeat VNil (used_ext_ptr L)) else None.
Definition ext_prims (L : layout) : list word := repeat (WInt 0) (used_ext_prim L).

(** object_with_layout.py 19-54; universe.py 325-330 (new_instance uses the class's
    current layout). *)
Definition new_object (c : cls) : obj :=
  {| o_layout := cur_idx c;
     o_field := repeat VNil NUMBER_OF_POINTER_FIELDS;
     o_prim := repeat (WInt 0) NUMBER_OF_PRIMITIVE_FIELDS;
     o_prims := ext_prims (cur_layout c);
     o_fields := ext_fields (cur_layout c);
     o_used := 0 |}.

(** object_with_layout.py 148-157 *)
Definition is_primitive_set (o : obj) (mk : Z) : bool := negb (Z.land (o_used o) mk =? 0).
Definition set_used (o : obj) (u : Z) : obj :=
  {| o_layout := o_layout o; o_field := o_field o; o_prim := o_prim o;
     o_prims := o_prims o; o_fields := o_fields o; o_used := u |}.
Definition mark_prim_as_set (o : obj) (mk : Z) : obj :=
  if Z.land (o_used o) mk =? 0 then set_used o (Z.lor (o_used o) mk) else o.
Definition mark_prim_as_unset (o : obj) (mk : Z) : obj :=
  if negb (Z.land (o_used o) mk =? 0) then set_used o (Z.land (o_used o) (Z.lnot mk)) else o.

(** Slot access: getattr/setattr of prim_field<k+1> (62-83, 86-107: below
    NUMBER_OF_PRIMITIVE_FIELDS) or prim_fields[k - 5]; likewise for pointers. *)
Definition get_slot {A} (l : list A) (k : nat) : res A :=
  match nth_error l k with Some x => Ok x | None => Err IndexError end.
Definition set_slot {A} (l : list A) (k : nat) (x : A) : res (list A) :=
  if Nat.ltb k (length l) then Ok (upd l k x) else Err IndexError.

Definition get_prim (o : obj) (k : nat) : res word :=
  if Nat.ltb k NUMBER_OF_PRIMITIVE_FIELDS then get_slot (o_prim o) k
  else get_slot (o_prims o) (k - NUMBER_OF_PRIMITIVE_FIELDS).
Definition set_prim (o : obj) (k : nat) (w : word) : res obj :=
  if Nat.ltb k NUMBER_OF_PRIMITIVE_FIELDS
  then l <- set_slot (o_prim o) k w ;;
       Ok {| o_layout := o_layout o; o_field := o_field o; o_prim := l;
             o_prims := o_prims o; o_fields := o_fields o; o_used := o_used o |}
  else l <- set_slot (o_prims o) (k - NUMBER_OF_PRIMITIVE_FIELDS) w ;;
       Ok {| o_layout := o_layout o; o_field := o_field o; o_prim := o_prim o;
             o_prims := l; o_fields := o_fields o; o_used := o_used o |}.
(** Indexing None is a TypeError. *)
Definition get_ptr (o : obj) (k : nat) : res value :=
  if Nat.ltb k NUMBER_OF_POINTER_FIELDS then get_slot (o_field o) k
  else match o_fields o with
       | Some l => get_slot l (k - NUMBER_OF_POINTER_FIELDS)
       | None => Err TypeError
       end.
Definition set_ptr (o : obj) (k : nat) (v : value) : res obj :=
  if Nat.ltb k NUMBER_OF_POINTER_FIELDS
  then l <- set_slot (o_field o) k v ;;
       Ok {| o_layout := o_layout o; o_field := l; o_prim := o_prim o;
             o_prims := o_prims o; o_fields := o_fields o; o_used := o_used o |}
  else match o_fields o with
       | Some l => l' <- set_slot l (k - NUMBER_OF_POINTER_FIELDS) v ;;
            Ok {| o_layout := o_layout o; o_field := o_field o; o_prim := o_prim o;
                  o_prims := o_prims o; o_fields := Some l'; o_used := o_used o |}
       | None => Err TypeError
       end.

(** Integer(..) and Double(longlong2float(..)) of a slot. *)
Definition word_value (is_double : bool) (w : word) : res value :=
  match is_double, w with
  | false, WInt z => Ok (VInt z)
  | true, WBits d => Ok (VDbl d)
  | _, _ => Err UndefinedBehaviour
  end.

(** storage_location.py 153-154 (unwritten), 166-170 and 195-196 (pointers), 221-228 and
    259-265 (direct primitives), 295-298 and 321-325 (extension primitives). *)
Definition read_location (l : location) (o : obj) : res value :=
  match l with
  | LUnwritten => Ok VNil
  | LPrim b k => if is_primitive_set o (mask k)
                 then w <- get_prim o k ;; word_value b w
                 else Ok VNil
  | LPtr k => get_ptr o k
  end.

(** storage_location.py 149-150, 191-192, 217-218 *)
Definition is_set_location (l : location) (o : obj) : bool :=
  match l with
  | LUnwritten => false
  | LPrim _ k => is_primitive_set o (mask k)
  | LPtr _ => true
  end.

(** What a write_fn does: return normally, or raise one of the two layout-transition
    exceptions (layout_transitions.py), or fail. *)
Inductive written := Written (o : obj) | Uninitialized | Generalize | Failed (e : exn).
Definition written_of (r : res obj) : written :=
  match r with Ok o => Written o | Err e => Failed e end.

(** storage_location.py 210-214 *)
Definition unset_or_generalize (mk : Z) (o : obj) (v : value) : written :=
  match v with VNil => Written (mark_prim_as_unset o mk) | _ => Generalize end.

(** storage_location.py 161-163 (unwritten), 184-188 and 206-207 (pointers), 244-256 and
    337-343 (doubles), 284-292 and 313-318 (integers). *)
Definition write_location (l : location) (o : obj) (v : value) : written :=
  match l with
  | LUnwritten => match v with VNil => Written o | _ => Uninitialized end
  | LPrim false k =>
      match v with
      | VInt z => written_of (o' <- set_prim o k (WInt z) ;; Ok (mark_prim_as_set o' (mask k)))
      | _ => unset_or_generalize (mask k) o v
      end
  | LPrim true k =>
      match v with
      | VDbl d => written_of (o' <- set_prim o k (WBits d) ;; Ok (mark_prim_as_set o' (mask k)))
      | _ => unset_or_generalize (mask k) o v
      end
  | LPtr k => written_of (set_ptr o k v)
  end.

(** storage_location.py 157-158, 173-181, 199-203, 231-241, 268-281, 301-310, 328-334 *)
Definition inc_location (m : mode) (l : location) (o : obj) : res (value * obj) :=
  match l with
  | LUnwritten => Err PyException
  | LPrim false k =>
      if is_primitive_set o (mask k)
      then w <- get_prim o k ;;
           match w with
           | WInt z => match ovfcheck m (z + 1) with
                       | Some r => o' <- set_prim o k (WInt r) ;; Ok (VInt r, o')
                       | None => Err NotImplementedErr
                       end
           | WBits _ => Err UndefinedBehaviour
           end
      else Err NotImplementedErr
  | LPrim true k =>
      if is_primitive_set o (mask k)
      then w <- get_prim o k ;;
           match w with
           | WBits d => let r := fadd d (float_of_Z 1) in
                        o' <- set_prim o k (WBits r) ;; Ok (VDbl r, o')
           | WInt _ => Err UndefinedBehaviour
           end
      else Err NotImplementedErr
  | LPtr k => v <- get_ptr o k ;; r <- prim_inc m v ;; o' <- set_ptr o k r ;; Ok (r, o')
  end.

(** object_with_layout.py 157-161: get_location through the object's own layout. *)
Definition get_location (c : cls) (o : obj) (i : nat) : res location :=
  get_slot (storage_locations (layout_of c (o_layout o))) i.

(** object_with_layout.py 169-174 *)
Definition get_field (c : cls) (o : obj) (i : nat) : res value :=
  l <- get_location c o i ;; read_location l o.
(** object_with_layout.py 165-167 *)
Definition is_field_set (c : cls) (o : obj) (i : nat) : res bool :=
  l <- get_location c o i ;; Ok (is_set_location l o).
(** object_with_layout.py 176-178 *)
Definition inc_field (m : mode) (c : cls) (o : obj) (i : nat) : res (value * obj) :=
  l <- get_location c o i ;; inc_location m l o.

(** object_with_layout.py 56-63: _get_all_fields; [None] for a field that is not set. *)
Fixpoint get_all_fields (c : cls) (o : obj) (todo : nat) (i : nat) : res (list (option value)) :=
  match todo with
  | O => Ok []
  | S n => b <- is_field_set c o i ;;
           x <- (if b then v <- get_field c o i ;; Ok (Some v) else Ok None) ;;
           t <- get_all_fields c o n (S i) ;;
           Ok (x :: t)
  end.

(** * Layout transitions *)

(** object_layout.py 81-86: the storage type of a value's class. *)
Definition spec_type (v : value) : ftype :=
  match v with VInt _ => TInt | VDbl _ => TDbl | _ => TObj end.

(** clazz.py 155, 161 after object_layout.py 69/91: the old layout's is_latest becomes
    False and the new one becomes the class's. *)
Definition add_layout (c : cls) (L : layout) : cls :=
  {| c_layouts := c_layouts c ++ [L];
     c_latest := upd (c_latest c) (cur_idx c) false ++ [true] |}.

(** clazz.py 150-156 with object_layout.py 78-98: [update_instance_layout_with_initialized_field]. *)
Definition with_initialized_field (c : cls) (i : nat) (t : ftype) : res cls :=
  ty <- get_slot (cur_layout c) i ;;
  match ty with
  | Some t' => if ftype_eqb t' t then Ok c else Err AssertionError
  | None => Ok (add_layout c (upd (cur_layout c) i (Some t)))
  end.
(** clazz.py 158-162 with object_layout.py 63-76. *)
Definition with_generalized_field (c : cls) (i : nat) : res cls :=
  ty <- get_slot (cur_layout c) i ;;
  match ty with
  | Some TObj => Ok c
  | Some _ => Ok (add_layout c (upd (cur_layout c) i (Some TObj)))
  | None => Err AssertionError
  end.

(** object_with_layout.py 93-112: the object as [_set_all_fields] (65-78) starts filling
    it: new layout, fresh extension lists, all direct slots reset. *)
Definition reset_for_layout (c : cls) (o : obj) (k : nat) : obj :=
  let L := layout_of c k in
  {| o_layout := k;
     o_field := repeat VNil NUMBER_OF_POINTER_FIELDS;
     o_prim := repeat (WInt 1234567890) NUMBER_OF_PRIMITIVE_FIELDS;
     o_prims := ext_prims L;
     o_fields := ext_fields L;
     o_used := 0 |}.

(** object_with_layout.py 74-78: the loop of _set_all_fields, over a given set_field. *)
Fixpoint set_all_fields (set : cls -> obj -> nat -> value -> res (cls * obj))
  (c : cls) (o : obj) (i : nat) (vs : list (option value)) : res (cls * obj) :=
  match vs with
  | [] => Ok (c, o)
  | x :: t => p <- set c o i (match x with Some v => v | None => VNil end) ;;
              set_all_fields set (fst p) (snd p) (S i) t
  end.

(** object_with_layout.py 93-112: _set_layout_and_transfer_fields.  The number of fields
    is the same in all layouts of a class (assertion at 83-86). *)
Definition transfer (set : cls -> obj -> nat -> value -> res (cls * obj))
  (c : cls) (o : obj) (k : nat) : res (cls * obj) :=
  vs <- get_all_fields c o (length (layout_of c (o_layout o))) 0 ;;
  set_all_fields set c (reset_for_layout c o k) 0 vs.

(** object_with_layout.py 180-202: set_field, with update_layout_with_initialized_field
    (114-123), update_layout_with_generalized_field (125-134) and
    set_field_after_layout_change.  It calls itself through the transfer of the other
    fields; [fuel] bounds the nesting (two levels always suffice). *)
Fixpoint set_field (fuel : nat) (c : cls) (o : obj) (i : nat) (v : value) : res (cls * obj) :=
  match fuel with
  | O => Err OutOfFuel
  | S f =>
      l <- get_location c o i ;;
      let relayout (r : res cls) :=
        c' <- r ;;
        if Nat.eqb (cur_idx c') (o_layout o) then Err AssertionError
        else p <- transfer (set_field f) c' o (cur_idx c') ;;
             l' <- get_location (fst p) (snd p) i ;;
             match write_location l' (snd p) v with
             | Written o' => Ok (fst p, o')
             | Failed e => Err e
             | Uninitialized | Generalize => Err PyException
             end in
      match write_location l o v with
      | Written o' => Ok (c, o')
      | Failed e => Err e
      | Uninitialized => relayout (with_initialized_field c i (spec_type v))
      | Generalize => relayout (with_generalized_field c i)
      end
  end.

(** object_with_layout.py 80-91: update_layout_to_match_class, called by every message
    send to an object whose layout is not the latest (bc/interpreter.py 398-400, 861-864;
    ast/nodes/message/generic_node.py 58-64). *)
Definition update_layout_to_match_class (fuel : nat) (c : cls) (o : obj) : res (cls * obj) :=
  if negb (Nat.eqb (length (layout_of c (o_layout o))) (length (cur_layout c)))
  then Err AssertionError
  else if negb (Nat.eqb (o_layout o) (cur_idx c))
       then transfer (set_field fuel) c o (cur_idx c)
       else Ok (c, o).

(** The is_latest test of a send, bc/interpreter.py 398-400. *)
Definition send_sync (fuel : nat) (c : cls) (o : obj) : res (cls * obj) :=
  if nth (o_layout o) (c_latest c) false then Ok (c, o)
  else update_layout_to_match_class fuel c o.

(** * Populations: one class and its instances *)
Record world := { w_cls : cls; w_objs : list obj }.
Definition new_world (n : nat) : world := {| w_cls := new_class n; w_objs := [] |}.
Definition get_obj (w : world) (k : nat) : res obj := get_slot (w_objs w) k.
Definition put_obj (w : world) (k : nat) (p : cls * obj) : world :=
  {| w_cls := fst p; w_objs := upd (w_objs w) k (snd p) |}.

Definition w_new (w : world) : world :=
  {| w_cls := w_cls w; w_objs := w_objs w ++ [new_object (w_cls w)] |}.
Definition w_get (w : world) (k i : nat) : res value :=
  o <- get_obj w k ;; get_field (w_cls w) o i.
Definition w_set (fuel : nat) (w : world) (k i : nat) (v : value) : res world :=
  o <- get_obj w k ;; p <- set_field fuel (w_cls w) o i v ;; Ok (put_obj w k p).
Definition w_inc (m : mode) (w : world) (k i : nat) : res (value * world) :=
  o <- get_obj w k ;; p <- inc_field m (w_cls w) o i ;;
  Ok (fst p, put_obj w k (w_cls w, snd p)).
Definition w_send (fuel : nat) (w : world) (k : nat) : res world :=
  o <- get_obj w k ;; p <- send_sync fuel (w_cls w) o ;; Ok (put_obj w k p).
