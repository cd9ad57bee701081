(** Model of arrays: src/som/vmobjects/array.py and
    src/som/primitives/array_primitives.py. *)
From Coq Require Import ZArith Bool String List Floats.SpecFloat.
From Verif Require Import Base NumModel.
Import ListNotations.
Open Scope Z_scope.

(** array.py 731-736: the strategy singletons other than empty/partially empty, used
    as the [type] of a _PartialStorage. *)
Inductive kind := KLong | KDouble | KBool | KObj.

(** [array.strategy] together with [array.storage] (array.py 778-807): one constructor
    per strategy.  [SPartial l e ty] is a _PartialStorage (603-610) with
    storage = l, empty_elements = e, type = ty; its [size] field equals [len(l)] at
    both construction sites (612-623) and is not stored again.  [SEmpty n]: the size is
    an int and is not checked to be non-negative (array_primitives.py 35-36). *)
Inductive storage :=
| SEmpty (n : Z)
| SPartial (l : list value) (empty_elements : Z) (ty : option kind)
| SObj (l : list value)
| SLong (l : list Z)
| SDouble (l : list spec_float)
| SBool (l : list bool).

(** Python list indexing [store[idx]] / [store[idx] = v]: a negative index counts from
    the end.  Outside, Python raises IndexError; translated RPython does not check
    (no handler for IndexError around these accesses). *)
Definition py_index {A} (l : list A) (idx : Z) : option nat :=
  let n := Z.of_nat (length l) in
  if (0 <=? idx) && (idx <? n) then Some (Z.to_nat idx)
  else if (- n <=? idx) && (idx <? 0) then Some (Z.to_nat (n + idx))
  else None.
Definition oob {A} (m : mode) : res A :=
  match m with Translated => Err UndefinedBehaviour | Hosted => Err IndexError end.
Definition py_get {A} (m : mode) (l : list A) (idx : Z) : res A :=
  match py_index l idx with
  | Some k => match nth_error l k with Some x => Ok x | None => oob m end
  | None => oob m
  end.
Fixpoint upd {A} (l : list A) (k : nat) (x : A) : list A :=
  match l, k with
  | [], _ => []
  | _ :: t, O => x :: t
  | h :: t, S k => h :: upd t k x
  end.
Definition py_set {A} (m : mode) (l : list A) (idx : Z) (x : A) : res (list A) :=
  match py_index l idx with Some k => Ok (upd l k x) | None => oob m end.

Definition is_nil (v : value) : bool := match v with VNil => true | _ => false end.

(** get_idx of each strategy: Object 235-237, Long 299-303, Double 384-388,
    Bool 457-461, Empty 539-543, PartiallyEmpty 636-638. *)
Definition get_idx (m : mode) (st : storage) (idx : Z) : res value :=
  match st with
  | SObj l => py_get m l idx
  | SLong l => z <- py_get m l idx ;; Ok (VInt z)
  | SDouble l => f <- py_get m l idx ;; Ok (VDbl f)
  | SBool l => b <- py_get m l idx ;; Ok (som_bool b)
  | SEmpty n => if (0 <=? idx) && (idx <? n) then Ok VNil else Err IndexError
  | SPartial l _ _ => py_get m l idx
  end.

(** get_size: 262-263, 344-345, 417-418, 490-491, 579-581, 695-696. *)
Definition get_size (st : storage) : Z :=
  match st with
  | SObj l => Z.of_nat (length l)
  | SLong l => Z.of_nat (length l)
  | SDouble l => Z.of_nat (length l)
  | SBool l => Z.of_nat (length l)
  | SEmpty n => n
  | SPartial l _ _ => Z.of_nat (length l)
  end.

(** as_arguments_array: 259-260, 340-342, 413-415, 486-488, 575-577, 692-693. *)
Definition as_arguments_array (st : storage) : list value :=
  match st with
  | SObj l => l
  | SLong l => map VInt l
  | SDouble l => map VDbl l
  | SBool l => map som_bool l
  | SEmpty n => repeat VNil (Z.to_nat n)
  | SPartial l _ _ => l
  end.

Fixpoint map_res {A B} (f : A -> res B) (l : list A) : res (list B) :=
  match l with
  | [] => Ok []
  | x :: t => y <- f x ;; r <- map_res f t ;; Ok (y :: r)
  end.

Definition embedded_double (v : value) : res spec_float :=
  match v with VDbl f => Ok f | _ => Err AttributeError end.
Definition is_true_object (v : value) : bool :=
  match v with VTrue => true | _ => false end.

(** new_storage_with_values of the strategies an array can be switched to: Object
    269-273, Long 351-357, Double 424-430, Bool 497-503. *)
Definition new_storage_with_values (k : kind) (values : list value) : res storage :=
  match k with
  | KObj => Ok (SObj values)
  | KLong => l <- map_res embedded_integer values ;; Ok (SLong l)
  | KDouble => l <- map_res embedded_double values ;; Ok (SDouble l)
  | KBool => Ok (SBool (map is_true_object values))
  end.

(** Whether an update is made inside the existing Python list / _PartialStorage object
    or stores a newly created object in [array.storage]. *)
Inductive update := InPlace (st : storage) | Fresh (st : storage).
Definition upd_storage (u : update) : storage :=
  match u with InPlace st | Fresh st => st end.

(** _PartialStorage.from_obj_values 612-619: [storage[0]] fails on an empty list. *)
Definition partial_from_obj_values (l : list value) : res storage :=
  match l with
  | [] => Err IndexError
  | _ => Ok (SPartial l (Z.of_nat (length l)) None)
  end.

(** The kind recorded for a stored value, 656-671. *)
Definition next_type (ty : option kind) (v : value) : kind :=
  match v with
  | VInt _ => match ty with None | Some KLong => KLong | _ => KObj end
  | VDbl _ => match ty with None | Some KDouble => KDouble | _ => KObj end
  | VTrue | VFalse => match ty with None | Some KBool => KBool | _ => KObj end
  | _ => KObj
  end.

(** _PartiallyEmptyStrategy.set_idx 640-678.  The list of the _PartialStorage is
    updated in place; when the array leaves the strategy, [array.storage] is set to a
    new storage (for the object strategy it wraps the same list, which no other array
    refers to). *)
Definition partial_set_idx (m : mode) (l : list value) (empty : Z) (ty : option kind)
    (idx : Z) (v : value) : res update :=
  old <- py_get m l idx ;;
  if is_nil v then
    if is_nil old then Ok (InPlace (SPartial l empty ty))
    else l' <- py_set m l idx VNil ;; Ok (InPlace (SPartial l' (empty + 1) ty))
  else
    let empty' := if is_nil old then empty - 1 else empty in
    l' <- py_set m l idx v ;;
    let ty' := next_type ty v in
    match ty' with
    | KObj => s <- new_storage_with_values KObj l' ;; Ok (Fresh s)
    | _ => if empty' =? 0
           then s <- new_storage_with_values ty' l' ;; Ok (Fresh s)
           else Ok (InPlace (SPartial l' empty' (Some ty')))
    end.

(** set_idx: Object 239-242, Long 305-321, Double 390-394, Bool 463-467,
    Empty 545-561, PartiallyEmpty 640-678. *)
Definition set_idx (m : mode) (st : storage) (idx : Z) (v : value) : res update :=
  match st with
  | SObj l => l' <- py_set m l idx v ;; Ok (InPlace (SObj l'))
  | SLong l =>
      match v with
      | VInt z => l' <- py_set m l idx z ;; Ok (InPlace (SLong l'))
      | _ => l' <- py_set m (map VInt l) idx v ;; Ok (Fresh (SObj l'))
      end
  | SDouble l =>
      match v with
      | VDbl f => l' <- py_set m l idx f ;; Ok (InPlace (SDouble l'))
      | _ => Err AssertionError
      end
  | SBool l =>
      match v with
      | VTrue | VFalse => l' <- py_set m l idx (is_true_object v) ;; Ok (InPlace (SBool l'))
      | _ => Err AssertionError
      end
  | SEmpty n =>
      if (0 <=? idx) && (idx <? n) then
        if is_nil v then Ok (InPlace st)
        else
          p <- partial_from_obj_values (repeat VNil (Z.to_nat n)) ;;
          match p with
          | SPartial l e ty =>
              u <- partial_set_idx m l e ty idx v ;; Ok (Fresh (upd_storage u))
          | _ => Err AssertionError
          end
      else Err IndexError
  | SPartial l e ty => partial_set_idx m l e ty idx v
  end.

(** [x] * size for a possibly negative size. *)
Definition zrepeat {A} (x : A) (n : Z) : list A := repeat x (Z.to_nat n).

(** _ArrayStrategy._set_all_with_value 71-91 *)
Definition set_all_with_value (v : value) (size : Z) : storage :=
  match v with
  | VNil => SEmpty size
  | VInt z => SLong (zrepeat z size)
  | VDbl f => SDouble (zrepeat f size)
  | VTrue | VFalse => SBool (zrepeat (is_true_object v) size)
  | _ => SObj (zrepeat v size)
  end.

(** set_all: 244-250, 323-327, 396-400, 469-473, 563-569, 680-685. *)
Definition set_all (st : storage) (v : value) : storage :=
  match st with
  | SEmpty n =>
      if is_nil v then st
      else if 0 <? n then set_all_with_value v n else st
  | _ => set_all_with_value v (get_size st)
  end.

(** putAll: with a block.  [blk] is one evaluation of the block ([invoke_1]) as an
    arbitrary fallible state transformer.  The storage under construction is a list
    whose slots are all assigned before it becomes visible, so it is passed as the
    reversed list of the slots filled so far; unfilled slots of [0] * size and
    [None] * size are only observable at the slot being processed (see
    [as_long] and [as_double]). *)
Section PutAllBlock.
  Context {St : Type}.
  Variable blk : St -> res (value * St).

  (** _set_remaining_with_block_as_obj 217-227; [todo] = size - next_i. *)
  Fixpoint set_remaining_as_obj (todo : nat) (rev_store : list value) (s : St)
    : res (storage * St) :=
    match todo with
    | O => Ok (SObj (rev rev_store), s)
    | S k => p <- blk s ;; set_remaining_as_obj k (fst p :: rev_store) (snd p)
    end.

  (** _set_remaining_with_block_as_nil 135-152; [done] = next_i. *)
  Fixpoint set_remaining_as_nil (todo : nat) (done : nat) (s : St) : res (storage * St) :=
    match todo with
    | O => Ok (SEmpty (Z.of_nat done), s)
    | S k =>
        p <- blk s ;;
        if is_nil (fst p) then set_remaining_as_nil k (S done) (snd p)
        else set_remaining_as_obj k (fst p :: repeat VNil done) (snd p)
    end.

  (** _set_remaining_with_block_as_long 154-173: on a result of another kind, slots
      0..next_i (inclusive) are rebuilt from the int list, so slot next_i becomes
      Integer(0) and the result is dropped. *)
  Fixpoint set_remaining_as_long (todo : nat) (rev_store : list Z) (s : St)
    : res (storage * St) :=
    match todo with
    | O => Ok (SLong (rev rev_store), s)
    | S k =>
        p <- blk s ;;
        match fst p with
        | VInt z => set_remaining_as_long k (z :: rev_store) (snd p)
        | _ => set_remaining_as_obj k (map VInt (0 :: rev_store)) (snd p)
        end
    end.

  (** _set_remaining_with_block_as_double 175-194: likewise with Double(0.0) — or, when
      entered with a store of booleans (123-127), with the double equal to the first
      result: [fill] is the value the unfilled slots hold. *)
  Fixpoint set_remaining_as_double (fill : spec_float) (todo : nat)
    (rev_store : list spec_float) (s : St) : res (storage * St) :=
    match todo with
    | O => Ok (SDouble (rev rev_store), s)
    | S k =>
        p <- blk s ;;
        match fst p with
        | VDbl f => set_remaining_as_double fill k (f :: rev_store) (snd p)
        | _ => set_remaining_as_obj k (map VDbl (fill :: rev_store)) (snd p)
        end
    end.

  (** _set_all_with_block 93-133.  The boolean case (123-127) calls the double variant
      with a list of booleans; RPython's annotator unifies that list with the list of
      floats of the other call site, converting the booleans to 1.0 / 0.0 (under plain
      Python the array would be unreadable instead: the assertion in
      _DoubleStrategy.get_idx fails; this is not modelled).
      [_set_remaining_with_block_as_bool] (196-215) is never called.  A negative size
      violates the assertion in line 106. *)
  Definition set_all_with_block (size : Z) (s : St) : res (storage * St) :=
    if size =? 0 then Ok (SEmpty 0, s)
    else if size <? 0 then Err AssertionError
    else
      let rest := Nat.pred (Z.to_nat size) in
      p <- blk s ;;
      match fst p with
      | VNil => set_remaining_as_nil rest 1 (snd p)
      | VInt z => set_remaining_as_long rest [z] (snd p)
      | VDbl f => set_remaining_as_double (S754_zero false) rest [f] (snd p)
      | VTrue | VFalse =>
          let f := float_of_Z (if is_true_object (fst p) then 1 else 0) in
          set_remaining_as_double f rest [f] (snd p)
      | v => set_remaining_as_obj rest [v] (snd p)
      end.
End PutAllBlock.

(** copy: 275-277, 359-361, 432-434, 505-507, 591-592, 708-713.  [Fresh] storages are
    new lists; the empty strategy reuses the storage object ([InPlace]: shared). *)
Definition copy_storage (st : storage) : res update :=
  match st with
  | SEmpty _ => Ok (InPlace st)
  | SPartial l _ _ => p <- partial_from_obj_values l ;; Ok (Fresh p)
  | _ => Ok (Fresh st)
  end.

(** copy_and_extend_with: 279-291, 363-376, 436-449, 509-522, 594-600, 715-728. *)
Definition copy_and_extend_with (m : mode) (st : storage) (v : value) : res storage :=
  match st with
  | SObj l => Ok (SObj (l ++ [v]))
  | SLong l => match v with VInt z => Ok (SLong (l ++ [z])) | _ => Err AssertionError end
  | SDouble l => match v with VDbl f => Ok (SDouble (l ++ [f])) | _ => Err AssertionError end
  | SBool l => match v with
               | VTrue | VFalse => Ok (SBool (l ++ [is_true_object v]))
               | _ => Err AssertionError end
  | SEmpty n =>
      match v with
      | VNil => Ok (SEmpty (n + 1))
      | _ => l <- py_set m (zrepeat VNil (n + 1)) (-1) v ;; Ok (SObj l)
      end
  | SPartial l e ty =>
      u <- partial_set_idx m (l ++ [VNil]) (e + 1) ty (Z.of_nat (length l)) v ;;
      Ok (upd_storage u)
  end.

(** _determine_strategy 739-775 (values are SOM objects at all call sites; the tests
    for raw Python ints, floats and bools are not modelled).  [None] = empty. *)
Definition determine_strategy (values : list value) : option kind :=
  let fix go l is_empty only_double only_long only_bool :=
    match l with
    | [] => if (is_empty : bool) then None
            else if (only_double : bool) then Some KDouble
            else if (only_long : bool) then Some KLong
            else if (only_bool : bool) then Some KBool
            else Some KObj
    | v :: t =>
        match v with
        | VNil => go t is_empty only_double only_long only_bool
        | VInt _ => go t false false only_long false
        | VDbl _ => go t false only_double false false
        | VTrue | VFalse => go t false false false only_bool
        | _ => go t false false false false
        end
    end in
  go values true true true true.

(** Array.from_size 784-786, from_values 788-794, from_integers 796-798,
    from_objects 800-803. *)
Definition from_size (n : Z) : storage := SEmpty n.
Definition from_values (values : list value) : res storage :=
  match determine_strategy values with
  | None => Ok (SEmpty (Z.of_nat (length values)))
  | Some k => new_storage_with_values k values
  end.
Definition from_integers (l : list Z) : storage := SLong l.
Definition from_objects (l : list value) : storage := SObj l.

(** * Arrays as objects: identity and sharing.
    [cells] are the storage objects (Python lists, _PartialStorage objects, boxed
    sizes) ever created; [arrs] gives for each Array object the storage object it
    currently refers to. *)
Record aheap := { cells : list storage; arrs : list nat }.
Definition empty_heap : aheap := {| cells := []; arrs := [] |}.

Definition storage_of (h : aheap) (a : nat) : option storage :=
  match nth_error (arrs h) a with
  | Some c => nth_error (cells h) c
  | None => None
  end.

(** A new Array object with a new storage object; answers its identity. *)
Definition alloc (h : aheap) (st : storage) : aheap * nat :=
  ({| cells := cells h ++ [st]; arrs := arrs h ++ [length (cells h)] |},
   length (arrs h)).

(** Apply an update to array [a]: in place (visible to every array sharing the storage
    object) or by installing a new storage object. *)
Definition apply_update (h : aheap) (a : nat) (u : update) : aheap :=
  match u with
  | InPlace st =>
      match nth_error (arrs h) a with
      | Some c => {| cells := upd (cells h) c st; arrs := arrs h |}
      | None => h
      end
  | Fresh st =>
      {| cells := cells h ++ [st]; arrs := upd (arrs h) a (length (cells h)) |}
  end.

(** A reference that is not an array has no such method. *)
Definition with_array {A} (h : aheap) (a : nat) (f : storage -> res A) : res A :=
  match storage_of h a with Some st => f st | None => Err AttributeError end.

(** * The primitives (array_primitives.py) *)
(** at: 16-17 *)
Definition prim_at (m : mode) (h : aheap) (a : nat) (i : value) : res value :=
  z <- embedded_integer i ;; with_array h a (fun st => get_idx m st (z - 1)).
(** at:put: 20-22 *)
Definition prim_at_put (m : mode) (h : aheap) (a : nat) (i v : value) : res aheap :=
  z <- embedded_integer i ;;
  with_array h a (fun st => u <- set_idx m st (z - 1) v ;; Ok (apply_update h a u)).
(** length 25-28 *)
Definition prim_length (h : aheap) (a : nat) : res value :=
  with_array h a (fun st => Ok (VInt (get_size st))).
(** copy 31-32 *)
Definition prim_copy (h : aheap) (a : nat) : res (aheap * nat) :=
  with_array h a (fun st =>
    u <- copy_storage st ;;
    match u, nth_error (arrs h) a with
    | InPlace _, Some c => Ok ({| cells := cells h; arrs := arrs h ++ [c] |}, length (arrs h))
    | Fresh st', _ => Ok (alloc h st')
    | _, None => Err AttributeError
    end).
(** new: 35-36 *)
Definition prim_new (h : aheap) (n : value) : res (aheap * nat) :=
  z <- embedded_integer n ;; Ok (alloc h (from_size z)).
(** putAll: with a value that is not a block, 88-95 *)
Definition prim_put_all (h : aheap) (a : nat) (v : value) : res aheap :=
  with_array h a (fun st =>
    match st with
    | SEmpty n => if is_nil v then Ok h
                  else if 0 <? n then Ok (apply_update h a (Fresh (set_all st v))) else Ok h
    | _ => Ok (apply_update h a (Fresh (set_all st v)))
    end).
(** putAll: with a block, 88-91; the heap after the block's evaluations is part of the
    block's state: [cur] extracts it. *)
Definition prim_put_all_block {St} (cur : St -> aheap) (put : St -> aheap -> St)
    (a : nat) (blk : St -> res (value * St)) (s : St) : res St :=
  with_array (cur s) a (fun st =>
    p <- set_all_with_block blk (get_size st) s ;;
    Ok (put (snd p) (apply_update (cur (snd p)) a (Fresh (fst p))))).
(** Array.copy_and_extend_with 833-834 *)
Definition array_copy_and_extend (m : mode) (h : aheap) (a : nat) (v : value)
  : res (aheap * nat) :=
  with_array h a (fun st => st' <- copy_and_extend_with m st v ;; Ok (alloc h st')).

(** doIndexes: 53-64.  [blk i s] is the evaluation of the block with Integer(i). *)
Fixpoint do_indexes_loop {St} (blk : value -> St -> res St) (todo : nat) (i : Z) (s : St)
  : res St :=
  match todo with
  | O => Ok s
  | S k => s' <- blk (VInt i) s ;; do_indexes_loop blk k (i + 1) s'
  end.
Definition prim_do_indexes {St} (cur : St -> aheap) (a : nat)
    (blk : value -> St -> res St) (s : St) : res St :=
  with_array (cur s) a (fun st => do_indexes_loop blk (Z.to_nat (get_size st)) 1 s).

(** do: 78-87.  The element is read from the current state of the receiver. *)
Fixpoint do_loop {St} (m : mode) (cur : St -> aheap) (a : nat) (blk : value -> St -> res St)
    (todo : nat) (i : Z) (s : St) : res St :=
  match todo with
  | O => Ok s
  | S k =>
      v <- with_array (cur s) a (fun st => get_idx m st i) ;;
      s' <- blk v s ;; do_loop m cur a blk k (i + 1) s'
  end.
Definition prim_do {St} (m : mode) (cur : St -> aheap) (a : nat)
    (blk : value -> St -> res St) (s : St) : res St :=
  with_array (cur s) a (fun st => do_loop m cur a blk (Z.to_nat (get_size st)) 0 s).
