(** Message lookup: method tables that cache inherited methods, the inline caches of both
    interpreters, super sends, and the arguments of doesNotUnderstand:arguments:.
    Methods are represented by their identity (a number), selectors by their name
    (symbols are unique per name, C27). *)
From Coq Require Import ZArith Bool String List Floats.SpecFloat.
From Verif Require Import Base NumModel ArrModel.
Import ListNotations.
Open Scope Z_scope.
Open Scope list_scope.

Definition meth := nat.

(** * Dictionaries: insertion-ordered, as Python dicts and RPython's ordered dicts. *)
Definition dict := list (string * meth).
Fixpoint dget (d : dict) (s : string) : option meth :=
  match d with
  | [] => None
  | (k, v) :: t => if String.eqb k s then Some v else dget t s
  end.
Fixpoint dset (d : dict) (s : string) (m : meth) : dict :=
  match d with
  | [] => [(s, m)]
  | (k, v) :: t => if String.eqb k s then (k, m) :: t else (k, v) :: dset t s m
  end.

(** * Classes (vmobjects/clazz.py) *)
(** _super_class (nilObject is [None]) and _invokables_table (None or a dict). *)
Record klass := { k_super : option nat; k_table : option dict }.
Definition heap := list klass.

Definition table_get (t : option dict) (s : string) : option meth :=
  match t with Some d => dget d s | None => None end.
(** clazz.py 103-105: [if not self._invokables_table: self._invokables_table = {}] and
    the store. *)
Definition table_put (t : option dict) (s : string) (m : meth) : option dict :=
  Some (dset (match t with Some d => d | None => [] end) s m).

Definition put_table (H : heap) (c : nat) (t : option dict) : heap :=
  match nth_error H c with
  | Some k => upd H c {| k_super := k_super k; k_table := t |}
  | None => H
  end.

(** clazz.py 92-110: lookup_invokable, recursive along the superclass chain ([fuel]
    bounds its length). *)
Fixpoint lookup_invokable (fuel : nat) (H : heap) (c : nat) (s : string)
  : res (option meth * heap) :=
  match fuel with
  | O => Err OutOfFuel
  | S f =>
      match nth_error H c with
      | None => Err AttributeError
      | Some k =>
          match table_get (k_table k) s with
          | Some m => Ok (Some m, H)
          | None =>
              match k_super k with
              | None => Ok (None, H)
              | Some p =>
                  r <- lookup_invokable f H p s ;;
                  match fst r with
                  | Some m =>
                      match nth_error (snd r) c with
                      | Some k' => Ok (Some m, put_table (snd r) c (table_put (k_table k') s m))
                      | None => Err AttributeError
                      end
                  | None => Ok (None, snd r)
                  end
              end
          end
      end
  end.

(** clazz.py 61-72: get_instance_invokables, the primitive behind [methods]. *)
Definition get_instance_invokables (k : klass) : list meth :=
  match k_table k with None => [] | Some d => map snd d end.

(** clazz.py 74-83: set_instance_invokables with the dictionary built by
    class_generation_context.py from the class file (a later method with the same
    selector replaces the earlier); then add_primitive (124-142) for each primitive.
    Simplification: loading is one step, and a class's superclass exists when it is
    loaded (universe.py sets the superclasses of the nine bootstrap classes before any
    message is sent). *)
Definition dict_of (ms : list (string * meth)) : dict :=
  fold_left (fun d p => dset d (fst p) (snd p)) ms [].
Definition set_instance_invokables (ms : list (string * meth)) : option dict :=
  match dict_of ms with [] => None | d => Some d end.
Definition add_primitive (t : option dict) (p : string * meth) : option dict :=
  table_put t (fst p) (snd p).
Definition load_class (H : heap) (super : option nat) (ms prims : list (string * meth)) : heap :=
  H ++ [{| k_super := super; k_table := fold_left add_primitive prims (set_instance_invokables ms) |}].

(** * Layouts and receivers, as far as call sites see them *)
(** A layout: its class (for_class) and is_latest.  [w_cur] is each class's
    _layout_for_instances, [w_objs] the layout of each object.  The heap is the class
    heap. *)
Record lworld := {
  lw_heap : heap;
  lw_lays : list (nat * bool);
  lw_cur : list nat;
  lw_objs : list nat
}.
Definition set_heap (w : lworld) (H : heap) : lworld :=
  {| lw_heap := H; lw_lays := lw_lays w; lw_cur := lw_cur w; lw_objs := lw_objs w |}.
Definition obj_layout (w : lworld) (o : nat) : res nat :=
  match nth_error (lw_objs w) o with Some l => Ok l | None => Err AttributeError end.
Definition for_class (w : lworld) (l : nat) : res nat :=
  match nth_error (lw_lays w) l with Some p => Ok (fst p) | None => Err AttributeError end.
Definition is_latest (w : lworld) (l : nat) : res bool :=
  match nth_error (lw_lays w) l with Some p => Ok (snd p) | None => Err AttributeError end.

Definition fuel_of (H : heap) : nat := S (length H).
(** object_layout.py 118-120 *)
Definition layout_lookup (w : lworld) (l : nat) (s : string) : res (option meth * lworld) :=
  c <- for_class w l ;;
  r <- lookup_invokable (fuel_of (lw_heap w)) (lw_heap w) c s ;;
  Ok (fst r, set_heap w (snd r)).

(** object_with_layout.py 80-91, seen from here: the object moves to its class's layout. *)
Definition update_layout (w : lworld) (o : nat) : res lworld :=
  l <- obj_layout w o ;; c <- for_class w l ;;
  match nth_error (lw_cur w) c with
  | Some l' => Ok {| lw_heap := lw_heap w; lw_lays := lw_lays w; lw_cur := lw_cur w;
                     lw_objs := upd (lw_objs w) o l' |}
  | None => Err AttributeError
  end.
(** A field write of object [o] that gives its class a new layout (clazz.py 150-162,
    object_layout.py 63-98): the old one is no longer the latest, the object has the new. *)
Definition new_layout (w : lworld) (o : nat) : res lworld :=
  l <- obj_layout w o ;; c <- for_class w l ;;
  match nth_error (lw_cur w) c with
  | Some old =>
      let n := length (lw_lays w) in
      Ok {| lw_heap := lw_heap w;
            lw_lays := upd (lw_lays w) old (c, false) ++ [(c, true)];
            lw_cur := upd (lw_cur w) c n;
            lw_objs := upd (lw_objs w) o n |}
  | None => Err AttributeError
  end.
(** universe.py 325-330 *)
Definition new_instance (w : lworld) (c : nat) : res lworld :=
  match nth_error (lw_cur w) c with
  | Some l => Ok {| lw_heap := lw_heap w; lw_lays := lw_lays w; lw_cur := lw_cur w;
                    lw_objs := lw_objs w ++ [l] |}
  | None => Err AttributeError
  end.
(** A newly loaded class has one layout (clazz.py 29). *)
Definition load_class_w (w : lworld) (super : option nat) (ms prims : list (string * meth)) : lworld :=
  {| lw_heap := load_class (lw_heap w) super ms prims;
     lw_lays := lw_lays w ++ [(length (lw_heap w), true)];
     lw_cur := lw_cur w ++ [length (lw_lays w)];
     lw_objs := lw_objs w |}.
Definition empty_world : lworld := {| lw_heap := []; lw_lays := []; lw_cur := []; lw_objs := [] |}.

(** * Dispatch nodes (interpreter/ast/nodes/dispatch.py) *)
Definition dnu : string := "doesNotUnderstand:arguments:".
Definition INLINE_CACHE_SIZE : nat := 6.

Inductive target :=
| TMethod (m : meth)                     (* CachedDispatchNode 79-99 *)
| TDnu (m : option meth)                 (* CachedDnuNode 102-132, with its cached method *)
| TGeneric.                              (* GenericDispatchNode 19-76 *)
(** expected_layout (None for the generic node) and what the node does; the chain of
    next_entry links is a list. *)
Record node := { n_layout : option nat; n_target : target }.
Definition chain := list node.

(** What a send does: run a method with the arguments, or run a
    doesNotUnderstand:arguments: method. *)
Inductive outcome := Runs (m : meth) | RunsDnu (m : meth).

(** Calling invoke_* on None. *)
Definition invoke (m : option meth) : res meth :=
  match m with Some x => Ok x | None => Err AttributeError end.

(** dispatch_*: CachedDispatchNode 86-99, CachedDnuNode 116-132; GenericDispatchNode
    31-76 looks the selector up through the receiver's current layout, and
    doesNotUnderstand:arguments: through its class (interpreter/send.py 13-18). *)
Definition dispatch (w : lworld) (t : target) (s : string) (o : nat) : res (outcome * lworld) :=
  match t with
  | TMethod m => Ok (Runs m, w)
  | TDnu d => m <- invoke d ;; Ok (RunsDnu m, w)
  | TGeneric =>
      l <- obj_layout w o ;;
      r <- layout_lookup w l s ;;
      match fst r with
      | Some m => Ok (Runs m, snd r)
      | None => r' <- layout_lookup (snd r) l dnu ;;
                m <- invoke (fst r') ;; Ok (RunsDnu m, snd r')
      end
  end.

(** generic_node.py 25-37: _lookup; also the first part of bc/interpreter.py 826-837. *)
Fixpoint find_node (c : chain) (l : nat) : option node :=
  match c with
  | [] => None
  | n :: t => if match n_layout n with Some x => Nat.eqb x l | None => false end
              then Some n else find_node t l
  end.
Definition node_lookup (c : chain) (l : nat) : option node :=
  match find_node c l with
  | Some n => Some n
  | None => match c with
            | n :: _ => match n_layout n with None => Some n | Some _ => None end
            | [] => None
            end
  end.

(** generic_node.py 39-56 and method_bc.py 156-171: unlink the entries whose layout is
    not the latest and count the others; a generic node has no layout to ask. *)
Fixpoint drop_old_entries (w : lworld) (c : chain) : res (chain * nat) :=
  match c with
  | [] => Ok ([], O)
  | n :: t =>
      match n_layout n with
      | None => Err AttributeError
      | Some l => b <- is_latest w l ;; r <- drop_old_entries w t ;;
                  if b then Ok (n :: fst r, S (snd r)) else Ok r
      end
  end.

(** generic_node.py 58-86: _specialize; answers the node, the new chain and state. *)
Definition ast_specialize (w : lworld) (c : chain) (s : string) (l o : nat)
  : res (node * chain * lworld) :=
  latest <- is_latest w l ;;
  wl <- (if latest then Ok (w, l)
         else w' <- update_layout w o ;; l' <- obj_layout w' o ;; Ok (w', l')) ;;
  match (if latest then None else node_lookup c (snd wl)) with
  | Some n => Ok (n, c, fst wl)
  | None =>
      r <- drop_old_entries (fst wl) c ;;
      if Nat.ltb (snd r) INLINE_CACHE_SIZE then
        q <- layout_lookup (fst wl) (snd wl) s ;;
        match fst q with
        | Some m => let n := {| n_layout := Some (snd wl); n_target := TMethod m |} in
                    Ok (n, n :: fst r, snd q)
        | None => d <- layout_lookup (snd q) (snd wl) dnu ;;
                  let n := {| n_layout := Some (snd wl); n_target := TDnu (fst d) |} in
                  Ok (n, n :: fst r, snd d)
        end
      else let g := {| n_layout := None; n_target := TGeneric |} in Ok (g, [g], fst wl)
  end.

(** generic_node.py 96-108 and its siblings: a send at an AST call site with selector
    [s] and cache [c] to object [o]. *)
Definition ast_send (w : lworld) (c : chain) (s : string) (o : nat) : res (outcome * chain * lworld) :=
  l <- obj_layout w o ;;
  x <- match node_lookup c l with
       | Some n => Ok (n, c, w)
       | None => ast_specialize w c s l o
       end ;;
  r <- dispatch (snd x) (n_target (fst (fst x))) s o ;;
  Ok (fst r, snd (fst x), snd r).

(** bc/interpreter.py 826-858: _lookup.  [cache_size] counts from the already exhausted
    [cache] variable and is therefore always 0, so a cached node is added whenever the
    method is found; otherwise the whole cache is replaced by a generic node. *)
Definition bc_lookup (w : lworld) (c : chain) (s : string) (l : nat) : res (node * chain * lworld) :=
  match node_lookup c l with
  | Some n => Ok (n, c, w)
  | None =>
      let cache_size := O in
      let g := {| n_layout := None; n_target := TGeneric |} in
      if Nat.leb cache_size INLINE_CACHE_SIZE then
        r <- layout_lookup w l s ;;
        match fst r with
        | Some m => let n := {| n_layout := Some l; n_target := TMethod m |} in
                    Ok (n, n :: c, snd r)
        | None => Ok (g, [g], snd r)
        end
      else Ok (g, [g], w)
  end.

(** bc/interpreter.py 392-461: send_1, send_2, send_3, send_n. *)
Definition bc_send (w : lworld) (c : chain) (s : string) (o : nat) : res (outcome * chain * lworld) :=
  l <- obj_layout w o ;;
  x <- bc_lookup w c s l ;;
  latest <- is_latest (snd x) l ;;
  y <- (if latest then Ok (snd (fst x), snd x)
        else w' <- update_layout (snd x) o ;;
             r <- drop_old_entries w' (snd (fst x)) ;; Ok (fst r, w')) ;;
  r <- dispatch (snd y) (n_target (fst (fst x))) s o ;;
  Ok (fst r, fst y, snd r).

(** bc/interpreter.py 39-69: _do_super_send for a method held by class [c].  Asking
    None for its number of arguments fails before the doesNotUnderstand: branch.
    After the first execution the bytecode is replaced by q_super_send_* (755-783),
    which runs the cached method: [cached]. *)
Definition bc_super_send (w : lworld) (cached : option meth) (c : nat) (s : string)
  : res (meth * option meth * lworld) :=
  match cached with
  | Some m => Ok (m, cached, w)
  | None =>
      match nth_error (lw_heap w) c with
      | None => Err AttributeError
      | Some k =>
          match k_super k with
          | None => Err AttributeError
          | Some p => r <- lookup_invokable (fuel_of (lw_heap w)) (lw_heap w) p s ;;
                      m <- invoke (fst r) ;; Ok (m, Some m, set_heap w (snd r))
          end
      end
  end.
(** ast/nodes/message/super_node.py 18-102; the superclass is fixed when the node is
    created. *)
Definition ast_super_send (w : lworld) (cached : option meth) (c : nat) (s : string)
  : res (meth * option meth * lworld) :=
  match cached with
  | Some m => Ok (m, cached, w)
  | None =>
      match nth_error (lw_heap w) c with
      | None => Err AttributeError
      | Some k =>
          match k_super k with
          | None => Err AttributeError
          | Some p => r <- lookup_invokable (fuel_of (lw_heap w)) (lw_heap w) p s ;;
                      match fst r with
                      | Some m => Ok (m, Some m, set_heap w (snd r))
                      | None => Err PyException
                      end
          end
      end
  end.
(** primitives/object_primitives.py 60-62: perform: *)
Definition prim_perform (w : lworld) (o : nat) (s : string) : res (meth * lworld) :=
  l <- obj_layout w o ;; r <- layout_lookup w l s ;; m <- invoke (fst r) ;; Ok (m, snd r).

(** * The arguments of doesNotUnderstand:arguments: *)
(** bc/interpreter.py 867-887: from the stack (top first), for [n] arguments; answers
    the array and the stack left under them. *)
Fixpoint fill_arguments (m : mode) (i : nat) (a : storage) (stack : list value)
  : res (storage * list value) :=
  match i with
  | O => Ok (a, stack)
  | S j => match stack with
           | [] => Err IndexError
           | v :: t => u <- set_idx m a (Z.of_nat j) v ;; fill_arguments m j (upd_storage u) t
           end
  end.
Definition send_does_not_understand (m : mode) (n : nat) (stack : list value) : res (storage * list value) :=
  fill_arguments m n (from_size (Z.of_nat n)) stack.
(** dispatch.py 37-76, _send_dnu of the generic node. *)
Definition generic_dnu_arguments (args : list value) : res storage := from_values args.
(** dispatch.py 116-132, CachedDnuNode: Array.from_size(0) without arguments. *)
Definition cached_dnu_arguments (args : list value) : res storage :=
  match args with [] => Ok (from_size 0) | _ => from_values args end.
(** bc/interpreter.py 392-461: send_1 to send_3 dispatch through the generic node;
    send_n (three arguments or more, on the stack with the last on top) through
    send_does_not_understand. *)
Definition bc_dnu_arguments (m : mode) (args : list value) : res storage :=
  if Nat.leb (length args) 2 then generic_dnu_arguments args
  else r <- send_does_not_understand m (length args) (rev args) ;; Ok (fst r).
