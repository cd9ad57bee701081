(** The priority queue of rlib/min_heap_queue.py. *)
From Coq Require Import ZArith Bool List.
From Verif Require Import Base.
Import ListNotations.
Open Scope Z_scope.
Open Scope list_scope.

(** min_heap_queue.py 8-10: HeapEntry; the second component is the entry's identity
    (the subclasses' other attributes). *)
Definition entry := (Z * nat)%type.
Definition address (e : entry) : Z := fst e.

(** Python list access and update at a non-negative index. *)
Definition hget (h : list entry) (i : nat) : res entry :=
  match nth_error h i with Some e => Ok e | None => Err IndexError end.
Fixpoint hput (h : list entry) (i : nat) (e : entry) : res (list entry) :=
  match h, i with
  | [], _ => Err IndexError
  | _ :: t, O => Ok (e :: t)
  | x :: t, S j => t' <- hput t j e ;; Ok (x :: t')
  end.

(** 31-43: the loop of _siftdown; [fuel] bounds the number of rounds. *)
Fixpoint siftdown_loop (fuel : nat) (h : list entry) (startpos pos : nat) (newitem : entry)
  : res (list entry * nat) :=
  match fuel with
  | O => Err OutOfFuel
  | S fuel =>
      if Nat.ltb startpos pos then
        let parentpos := Nat.div2 (pos - 1) in
        parent <- hget h parentpos ;;
        if address newitem <? address parent then
          h' <- hput h pos parent ;;
          siftdown_loop fuel h' startpos parentpos newitem
        else Ok (h, pos)
      else Ok (h, pos)
  end.
Definition siftdown (h : list entry) (startpos pos : nat) : res (list entry) :=
  newitem <- hget h pos ;;
  r <- siftdown_loop (S pos) h startpos pos newitem ;;
  hput (fst r) (snd r) newitem.

(** 46-64: the loop of _siftup. *)
Fixpoint siftup_loop (fuel : nat) (h : list entry) (endpos pos : nat) : res (list entry * nat) :=
  match fuel with
  | O => Err OutOfFuel
  | S fuel =>
      let childpos := (2 * pos + 1)%nat in
      if Nat.ltb childpos endpos then
        let rightpos := (childpos + 1)%nat in
        childpos <- (if Nat.ltb rightpos endpos
                     then l <- hget h childpos ;; r <- hget h rightpos ;;
                          if negb (address l <? address r) then Ok rightpos else Ok childpos
                     else Ok childpos) ;;
        c <- hget h childpos ;;
        h' <- hput h pos c ;;
        siftup_loop fuel h' endpos childpos
      else Ok (h, pos)
  end.
Definition siftup (h : list entry) (pos : nat) : res (list entry) :=
  newitem <- hget h pos ;;
  r <- siftup_loop (S (length h)) h (length h) pos ;;
  h' <- hput (fst r) (snd r) newitem ;;
  siftdown h' pos (snd r).

(** 13-16 *)
Definition heappush (h : list entry) (item : entry) : res (list entry) :=
  siftdown (h ++ [item]) 0 (length (h ++ [item]) - 1).
(** 19-28 *)
Definition heappop (h : list entry) : res (entry * list entry) :=
  match rev h with
  | [] => Err IndexError
  | lastelt :: rest =>
      let h1 := rev rest in
      match h1 with
      | [] => Ok (lastelt, [])
      | returnitem :: _ =>
          h2 <- hput h1 0 lastelt ;;
          h3 <- siftup h2 0 ;;
          Ok (returnitem, h3)
      end
  end.
