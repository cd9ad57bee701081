(** Objects as the VM holds them: references to Python objects, some of which are taken apart
    and made anew on the way through arrays and fields.  ==, = and hashcode on them.
    som/vmobjects/array.py (identity of what the strategies store and answer),
    som/interpreter/objectstorage/storage_location.py, som/primitives/object_primitives.py 11-14,
    30-33, string_primitives.py 23-29, 51-52, symbol_primitives.py 11-18,
    integer_primitives.py 82-89, som/vm/symbols.py 5-18. *)
From Coq Require Import ZArith Bool String Floats.SpecFloat List.
From Verif Require Import Base NumModel ArrModel.
From Verif Require TxtModel.
Import ListNotations.
Open Scope list_scope.
Open Scope Z_scope.

(** A reference to a Python object: where it is, and what it is (vmobjects/*.py; these objects
    never change their contents, except instances and arrays, whose contents are in [cells]).
    [Sing]: the objects of vm/globals.py 4-7; [Made]: made by the running program (a literal, an
    answer of a primitive, new); [Reboxed]: an Integer or Double made from a number that was
    stored without its object. *)
Inductive place := Sing (n : nat) | Made (n : nat) | Reboxed (n : nat).
Record box := Box { at_ : place; what : value }.
Definition place_eqb (p q : place) : bool :=
  match p, q with
  | Sing m, Sing n | Made m, Made n | Reboxed m, Reboxed n => Nat.eqb m n
  | _, _ => false
  end.
(** nilObject, trueObject, falseObject (vm/globals.py) *)
Definition nil_ : box := Box (Sing 0) VNil.
Definition true_ : box := Box (Sing 1) VTrue.
Definition false_ : box := Box (Sing 2) VFalse.
Definition bool_ (b : bool) : box := if b then true_ else false_.
Definition is_nil_ (b : box) : bool := is_nil (what b).

(** * Arrays (array.py), as in ArrModel, with the objects themselves *)
(** The strategies and their storages (array.py 603-623, 731-736, 778-807).  Simplification:
    an array has its storage to itself (ArrModel has the sharing; C16). *)
Inductive bstorage :=
| BEmpty (n : Z)
| BPartial (l : list box) (empty_elements : Z) (ty : option kind)
| BObj (l : list box)
| BLong (l : list Z)
| BDouble (l : list spec_float)
| BBool (l : list bool).
(** New Integer and Double objects: the objects made so far, and the new ones
    (array.py 303, 317, 342, 388; storage_location.py read_location). *)
Definition rebox (v : value) (h : list value) : box * list value := (Box (Reboxed (length h)) v, h ++ [v]).
Fixpoint rebox_all (vs : list value) (h : list value) : list box * list value :=
  match vs with
  | [] => ([], h)
  | v :: vs => let (b, h) := rebox v h in let (bs, h) := rebox_all vs h in (b :: bs, h)
  end.
(** get_idx (array.py 235-237, 299-303, 384-388, 457-461, 539-543, 636-638) *)
Definition get_idx (m : mode) (st : bstorage) (idx : Z) (h : list value) : res (box * list value) :=
  match st with
  | BObj l | BPartial l _ _ => b <- py_get m l idx ;; Ok (b, h)
  | BLong l => z <- py_get m l idx ;; Ok (rebox (VInt z) h)
  | BDouble l => f <- py_get m l idx ;; Ok (rebox (VDbl f) h)
  | BBool l => b <- py_get m l idx ;; Ok (bool_ b, h)
  | BEmpty n => if (0 <=? idx) && (idx <? n) then Ok (nil_, h) else Err IndexError
  end.
(** get_size (array.py 262-263, 344-345, 417-418, 490-491, 579-581, 695-696) *)
Definition get_size (st : bstorage) : Z :=
  match st with
  | BObj l | BPartial l _ _ => Z.of_nat (length l)
  | BLong l => Z.of_nat (length l)
  | BDouble l => Z.of_nat (length l)
  | BBool l => Z.of_nat (length l)
  | BEmpty n => n
  end.
(** new_storage_with_values (array.py 269-273, 351-357, 424-430, 497-503) *)
Definition new_storage_with_values (k : kind) (values : list box) : res bstorage :=
  match k with
  | KObj => Ok (BObj values)
  | KLong => l <- map_res (fun b => embedded_integer (what b)) values ;; Ok (BLong l)
  | KDouble => l <- map_res (fun b => embedded_double (what b)) values ;; Ok (BDouble l)
  | KBool => Ok (BBool (map (fun b => is_true_object (what b)) values))
  end.
(** _PartiallyEmptyStrategy.set_idx (array.py 640-678); the type by [next_type] of ArrModel *)
Definition partial_set_idx (m : mode) (l : list box) (empty : Z) (ty : option kind) (idx : Z) (b : box)
  : res bstorage :=
  old <- py_get m l idx ;;
  if is_nil_ b then
    if is_nil_ old then Ok (BPartial l empty ty)
    else l' <- py_set m l idx nil_ ;; Ok (BPartial l' (empty + 1) ty)
  else
    let empty' := if is_nil_ old then empty - 1 else empty in
    l' <- py_set m l idx b ;;
    let ty' := next_type ty (what b) in
    match ty' with
    | KObj => new_storage_with_values KObj l'
    | _ => if empty' =? 0 then new_storage_with_values ty' l' else Ok (BPartial l' empty' (Some ty'))
    end.
(** set_idx (array.py 239-242, 305-321, 390-394, 463-467, 545-561, 640-678) *)
Definition set_idx (m : mode) (st : bstorage) (idx : Z) (b : box) (h : list value)
  : res (bstorage * list value) :=
  match st with
  | BObj l => l' <- py_set m l idx b ;; Ok (BObj l', h)
  | BLong l =>
      match what b with
      | VInt z => l' <- py_set m l idx z ;; Ok (BLong l', h)
      | _ => let (bs, h) := rebox_all (map VInt l) h in
             l' <- py_set m bs idx b ;; Ok (BObj l', h)
      end
  | BDouble l =>
      match what b with
      | VDbl f => l' <- py_set m l idx f ;; Ok (BDouble l', h)
      | _ => Err AssertionError
      end
  | BBool l =>
      match what b with
      | VTrue | VFalse => l' <- py_set m l idx (is_true_object (what b)) ;; Ok (BBool l', h)
      | _ => Err AssertionError
      end
  | BEmpty n =>
      if (0 <=? idx) && (idx <? n) then
        if is_nil_ b then Ok (st, h)
        else st' <- partial_set_idx m (repeat nil_ (Z.to_nat n)) n None idx b ;; Ok (st', h)
      else Err IndexError
  | BPartial l e ty => st' <- partial_set_idx m l e ty idx b ;; Ok (st', h)
  end.
(** _set_all_with_value, set_all (array.py 71-91, 244-250, 323-327, 396-400, 469-473, 563-569, 680-685) *)
Definition set_all_with_value (b : box) (size : Z) : bstorage :=
  match what b with
  | VNil => BEmpty size
  | VInt z => BLong (zrepeat z size)
  | VDbl f => BDouble (zrepeat f size)
  | VTrue | VFalse => BBool (zrepeat (is_true_object (what b)) size)
  | _ => BObj (zrepeat b size)
  end.
Definition set_all (st : bstorage) (b : box) : bstorage :=
  match st with
  | BEmpty n => if is_nil_ b then st else if 0 <? n then set_all_with_value b n else st
  | _ => set_all_with_value b (get_size st)
  end.
(** copy (array.py 275-277, 359-361, 432-434, 505-507, 591-592, 708-713): a partially filled
    array is copied as one of which nothing is known. *)
Definition copy_storage (st : bstorage) : res bstorage :=
  match st with
  | BPartial [] _ _ => Err IndexError
  | BPartial l _ _ => Ok (BPartial l (Z.of_nat (length l)) None)
  | st => Ok st
  end.

(** * Fields (storage_location.py, object_with_layout.py) *)
(** A field holds an object, or a number without its object (storage_location.py 221-343), or
    nothing.  Simplification: whether a field is at the moment one for numbers is not computed
    from the layout of the class (ObjModel has the layouts; C19) but given with every write. *)
Inductive slot := Unset | Raw (v : value) | Boxed (b : box).
Definition number (v : value) : bool := match v with VInt _ | VDbl _ => true | _ => false end.
(** write_location, _long_array_write, _double_array_write, _object_array_write, _unset_or_generalize
    (storage_location.py 184-188, 206-214, 244-256, 284-292, 313-318, 337-343) *)
Definition write_slot (raw : bool) (b : box) : slot :=
  if is_nil_ b && raw then Unset else if number (what b) && raw then Raw (what b) else Boxed b.
(** read_location, _long_array_read, _double_array_read, _object_array_read (storage_location.py 166-170,
    195-196, 221-228, 259-265, 295-298, 321-325) *)
Definition read_slot (s : slot) (h : list value) : box * list value :=
  match s with Unset => (nil_, h) | Raw v => rebox v h | Boxed b => (b, h) end.
(** _get_all_fields, _set_all_fields, update_layout_to_match_class (object_with_layout.py 56-134): every field
    is read and written again. *)
Fixpoint relayout (ss : list slot) (raws : list bool) (h : list value) : list slot * list value :=
  match ss with
  | [] => ([], h)
  | s :: ss =>
      let (b, h) := read_slot s h in
      let (rest, h) := relayout ss (tl raws) h in
      (write_slot (hd false raws) b :: rest, h)
  end.

(** * Programs *)
Inductive cell := Inst (l : list slot) | Arr (st : bstorage).
(** The objects made by the program and those made from numbers, the symbol table
    (vm/symbols.py 5), the contents of instances and arrays, and the objects the program
    has got so far, which its next steps name by their numbers. *)
Record mem := Mem {
  made : list value; reboxed : list value; symbols : list (string * box);
  cells : list cell; vars : list box }.
(** vm/globals.py 4-7: before the program starts. *)
Definition start : mem := Mem [] [] [] [] [].

(** The steps: an object comes into being (nil, true, false; numbers and strings; symbol_for;
    new; new:), is handed on, is stored in an array or read from it (array_primitives.py 16-36,
    88-95), or in a field. *)
Inductive op :=
| ONil | OTrue | OFalse
| OInt (z : Z) | OBig (z : Z) | ODbl (f : spec_float) | OStr (s : string) | OSym (s : string)
| OTake (x : nat)
| ONew (fields : nat) | OArray (n : Z)
| OAt (a i : nat) | OAtPut (a i x : nat) | OPutAll (a x : nat) | OCopy (a : nat)
| ORead (o k : nat) | OWrite (o k x : nat) (raw : bool) | ORelayout (o : nat) (raws : list bool).

Definition push (b : box) (s : mem) : mem :=
  Mem (made s) (reboxed s) (symbols s) (cells s) (vars s ++ [b]).
(** An object is made (vmobjects/integer.py 11-14, biginteger.py 9-12, double.py 10-13,
    string.py 7-9, object_with_layout.py 19-54, array.py 805-807). *)
Definition make (v : value) (s : mem) : box * mem :=
  (Box (Made (length (made s))) v,
   Mem (made s ++ [v]) (reboxed s) (symbols s) (cells s) (vars s)).
(** symbol_for (vm/symbols.py 8-18) *)
Fixpoint find (t : string) (table : list (string * box)) : option box :=
  match table with
  | [] => None
  | (u, b) :: table => if String.eqb u t then Some b else find t table
  end.
Definition symbol_for (t : string) (s : mem) : box * mem :=
  match find t (symbols s) with
  | Some b => (b, s)
  | None => let (b, s) := make (VSym t) s in
            (b, Mem (made s) (reboxed s) (symbols s ++ [(t, b)]) (cells s) (vars s))
  end.
(** A new instance or array. *)
Definition make_cell (c : cell) (s : mem) : box * mem :=
  let (b, s) := make (VObj (length (cells s))) s in
  (b, Mem (made s) (reboxed s) (symbols s) (cells s ++ [c]) (vars s)).

Definition var (s : mem) (x : nat) : res box :=
  match nth_error (vars s) x with Some b => Ok b | None => Err KeyError end.
Definition cell_of (s : mem) (b : box) : res (nat * cell) :=
  match what b with
  | VObj k => match nth_error (cells s) k with Some c => Ok (k, c) | None => Err AttributeError end
  | _ => Err AttributeError
  end.
Definition array_of (s : mem) (b : box) : res (nat * bstorage) :=
  p <- cell_of s b ;; match snd p with Arr st => Ok (fst p, st) | _ => Err AttributeError end.
Definition inst_of (s : mem) (b : box) : res (nat * list slot) :=
  p <- cell_of s b ;; match snd p with Inst l => Ok (fst p, l) | _ => Err AttributeError end.
Definition set_cell (k : nat) (c : cell) (h : list value) (s : mem) : mem :=
  Mem (made s) h (symbols s) (upd (cells s) k c) (vars s).
Definition set_reboxed (h : list value) (s : mem) : mem :=
  Mem (made s) h (symbols s) (cells s) (vars s).
Definition push_made (p : box * mem) : mem := push (fst p) (snd p).

(** One step.  at: and at:put: take an index from 1 (array_primitives.py 16-22); new: takes
    the length (35-36); putAll: a value (88-95); at:put: and putAll: answer the array. *)
Definition step (m : mode) (o : op) (s : mem) : res mem :=
  match o with
  | ONil => Ok (push nil_ s)
  | OTrue => Ok (push true_ s)
  | OFalse => Ok (push false_ s)
  | OInt z => Ok (push_made (make (VInt z) s))
  | OBig z => Ok (push_made (make (VBig z) s))
  | ODbl f => Ok (push_made (make (VDbl f) s))
  | OStr t => Ok (push_made (make (VStr t) s))
  | OSym t => Ok (push_made (symbol_for t s))
  | OTake x => b <- var s x ;; Ok (push b s)
  | ONew n => Ok (push_made (make_cell (Inst (repeat Unset n)) s))
  | OArray n => Ok (push_made (make_cell (Arr (BEmpty n)) s))
  | OAt a i =>
      ba <- var s a ;; bi <- var s i ;;
      p <- array_of s ba ;; z <- embedded_integer (what bi) ;;
      r <- get_idx m (snd p) (z - 1) (reboxed s) ;;
      Ok (push (fst r) (set_reboxed (snd r) s))
  | OAtPut a i x =>
      ba <- var s a ;; bi <- var s i ;; bx <- var s x ;;
      p <- array_of s ba ;; z <- embedded_integer (what bi) ;;
      r <- set_idx m (snd p) (z - 1) bx (reboxed s) ;;
      Ok (push ba (set_cell (fst p) (Arr (fst r)) (snd r) s))
  | OPutAll a x =>
      ba <- var s a ;; bx <- var s x ;; p <- array_of s ba ;;
      Ok (push ba (set_cell (fst p) (Arr (set_all (snd p) bx)) (reboxed s) s))
  | OCopy a =>
      ba <- var s a ;; p <- array_of s ba ;; st <- copy_storage (snd p) ;;
      Ok (push_made (make_cell (Arr st) s))
  | ORead o k =>
      bo <- var s o ;; p <- inst_of s bo ;;
      match nth_error (snd p) k with
      | Some sl => let (b, h) := read_slot sl (reboxed s) in Ok (push b (set_reboxed h s))
      | None => Err IndexError
      end
  | OWrite o k x raw =>
      bo <- var s o ;; bx <- var s x ;; p <- inst_of s bo ;;
      if (k <? length (snd p))%nat
      then Ok (push bx (set_cell (fst p) (Inst (upd (snd p) k (write_slot raw bx))) (reboxed s) s))
      else Err IndexError
  | ORelayout o raws =>
      bo <- var s o ;; p <- inst_of s bo ;;
      let (l, h) := relayout (snd p) raws (reboxed s) in
      Ok (push bo (set_cell (fst p) (Inst l) h s))
  end.
Fixpoint run (m : mode) (os : list op) (s : mem) : res mem :=
  match os with [] => Ok s | o :: os => s <- step m o s ;; run m os s end.

(** * Messages *)
(** == : of the classes Integer (integer_primitives.py 82-85) and Object
    (object_primitives.py 11-14) *)
Definition send_identical (m : mode) (a b : box) : res value :=
  match what a with
  | VInt _ | VBig _ => int_equals_equals m (what a) (what b)
  | _ => Ok (som_bool (place_eqb (at_ a) (at_ b)))
  end.
(** = : of Integer and Double (integer_primitives.py 88-89, double_primitives.py 38-39),
    String (string_primitives.py 23-29) and Symbol (symbol_primitives.py 11-18).  The
    repository has no = for other classes. *)
Definition send_equal (m : mode) (a b : box) : res value :=
  match what a with
  | VInt _ | VBig _ | VDbl _ => prim_equals m (what a) (what b)
  | VStr t => Ok (som_bool (TxtModel.prim_equals t (what b)))
  | VSym t => if place_eqb (at_ a) (at_ b) then Ok VTrue
              else Ok (som_bool (TxtModel.prim_equals t (what b)))
  | _ => Err NotInstalled
  end.
(** hashcode: of String, which Symbol inherits (string_primitives.py 51-52), and of Object
    (object_primitives.py 30-33).  [sh] is compute_hash of a text, [ih] compute_identity_hash
    (rlib/objectmodel.py 20-35): functions of the text and of the object. *)
Definition send_hashcode (sh : string -> Z) (ih : place -> Z) (a : box) : Z :=
  match what a with VStr t | VSym t => sh t | _ => ih (at_ a) end.
