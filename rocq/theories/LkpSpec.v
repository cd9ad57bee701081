(** Specification of message lookup: class definitions and the nearest definition along
    the superclass chain.  No tables, no caches. *)
From Coq Require Import ZArith Bool String List Floats.SpecFloat.
From Verif Require Import Base LkpModel.
Import ListNotations.
Open Scope list_scope.

(** A class definition: its superclass and its methods (later ones replace earlier ones
    with the same selector, and primitives replace methods). *)
Record cdef := { d_super : option nat; d_methods : list (string * nat) }.

(** [m] is what the list of definitions says about [s]: the last entry. *)
Fixpoint defined (ms : list (string * nat)) (s : string) : option nat :=
  match ms with
  | [] => None
  | (k, m) :: t => match defined t s with
                   | Some x => Some x
                   | None => if String.eqb k s then Some m else None
                   end
  end.

(** The nearest definition. *)
Inductive finds (cs : list cdef) : nat -> string -> nat -> Prop :=
| finds_here c d s m : nth_error cs c = Some d -> defined (d_methods d) s = Some m -> finds cs c s m
| finds_up c d p s m : nth_error cs c = Some d -> defined (d_methods d) s = None ->
    d_super d = Some p -> finds cs p s m -> finds cs c s m.

(** No class on the chain defines [s]. *)
Inductive lacks (cs : list cdef) : nat -> string -> Prop :=
| lacks_root c d s : nth_error cs c = Some d -> defined (d_methods d) s = None ->
    d_super d = None -> lacks cs c s
| lacks_up c d p s : nth_error cs c = Some d -> defined (d_methods d) s = None ->
    d_super d = Some p -> lacks cs p s -> lacks cs c s.

(** What sending [s] to an instance of [c] must do. *)
Inductive sends (cs : list cdef) (c : nat) (s : string) : outcome -> Prop :=
| sends_method m : finds cs c s m -> sends cs c s (Runs m)
| sends_dnu d : lacks cs c s -> finds cs c dnu d -> sends cs c s (RunsDnu d).

(** * Histories *)
Inductive lop :=
| LLoad (super : option nat) (ms prims : list (string * nat))  (* load a class *)
| LFind (c : nat) (s : string)            (* a lookup somewhere in the program *)
| LNew (c : nat)                          (* a new instance of class c *)
| LLayout (o : nat)                       (* a field write of o changes its class's layout *)
| LMove (o : nat)                         (* o is brought to its class's layout *)
| LSend (o : nat).                        (* the call site under study sends to o *)

(** The class definitions after a history, and the class of each object. *)
Fixpoint classes (cs : list cdef) (ops : list lop) : list cdef :=
  match ops with
  | [] => cs
  | LLoad sup ms prims :: t => classes (cs ++ [{| d_super := sup; d_methods := ms ++ prims |}]) t
  | _ :: t => classes cs t
  end.
Fixpoint object_classes (os : list nat) (ops : list lop) : list nat :=
  match ops with
  | [] => os
  | LNew c :: t => object_classes (os ++ [c]) t
  | _ :: t => object_classes os t
  end.

(** Operations refer to existing classes and objects; superclasses are loaded first. *)
Definition lvalid (nc no : nat) (op : lop) : Prop :=
  match op with
  | LLoad (Some p) _ _ => (p < nc)%nat
  | LLoad None _ _ => True
  | LFind c _ | LNew c => (c < nc)%nat
  | LLayout o | LMove o | LSend o => (o < no)%nat
  end.
Fixpoint lvalid_history (nc no : nat) (ops : list lop) : Prop :=
  match ops with
  | [] => True
  | op :: t => lvalid nc no op
      /\ lvalid_history (match op with LLoad _ _ _ => S nc | _ => nc end)
                        (match op with LNew _ => S no | _ => no end) t
  end.

(** Running a history with a call site of selector [s] and a given send function. *)
Definition lexec (send : lworld -> chain -> string -> nat -> res (outcome * chain * lworld))
  (s : string) (st : chain * lworld) (op : lop) : res (chain * lworld) :=
  let (c, w) := st in
  match op with
  | LLoad sup ms prims => Ok (c, load_class_w w sup ms prims)
  | LFind k s' => r <- lookup_invokable (fuel_of (lw_heap w)) (lw_heap w) k s' ;;
                  Ok (c, set_heap w (snd r))
  | LNew k => w' <- new_instance w k ;; Ok (c, w')
  | LLayout o => w' <- new_layout w o ;; Ok (c, w')
  | LMove o => w' <- update_layout w o ;; Ok (c, w')
  | LSend o => r <- send w c s o ;; Ok (snd (fst r), snd r)
  end.
Fixpoint lrun send s (st : chain * lworld) (ops : list lop) : res (chain * lworld) :=
  match ops with
  | [] => Ok st
  | op :: t => st' <- lexec send s st op ;; lrun send s st' t
  end.

(** * Stale receivers (bytecode interpreter) *)
(** The class of each object, and whether its class got a new layout since the object
    last received a message at the call site, was created or moved. *)
Fixpoint stale_after (st : list (nat * bool)) (ops : list lop) : list (nat * bool) :=
  match ops with
  | [] => st
  | LNew c :: t => stale_after (st ++ [(c, false)]) t
  | LLayout o :: t =>
      let c := fst (nth o st (O, false)) in
      stale_after (map (fun i => let p := nth i st (O, false) in
                                 (fst p, if Nat.eqb i o then false
                                         else if Nat.eqb (fst p) c then true else snd p))
                       (seq 0 (length st))) t
  | LMove o :: t | LSend o :: t =>
      stale_after (map (fun i => let p := nth i st (O, false) in
                                 (fst p, if Nat.eqb i o then false else snd p))
                       (seq 0 (length st))) t
  | _ :: t => stale_after st t
  end.
Definition stale (ops : list lop) (o : nat) : bool := snd (nth o (stale_after [] ops) (O, false)).

(** Some send of the history was not understood. *)
Definition missed (ops : list lop) (s : string) : Prop :=
  exists o c, In (LSend o) ops /\ nth_error (object_classes [] ops) o = Some c
              /\ lacks (classes [] ops) c s.

(** * What [methods] must answer *)
Fixpoint first_occurrences (l : list string) : list string :=
  match l with
  | [] => []
  | s :: t => s :: filter (fun x => negb (String.eqb s x)) (first_occurrences t)
  end.
(** The methods a class defines, one per selector, in the order of the class file. *)
Definition own_methods (ms : list (string * nat)) : list nat :=
  flat_map (fun s => match defined ms s with Some m => [m] | None => [] end)
           (first_occurrences (map fst ms)).
