(** What C71 compares the VM with: a memory whose arrays and objects keep the very objects
    that are stored in them. *)
From Coq Require Import ZArith Bool String List.
From Verif Require Import Base NumModel ArrModel IdModel.
Import ListNotations.
Open Scope list_scope.
Open Scope Z_scope.

Record ideal := Ideal {
  i_made : list value; i_symbols : list (string * box);
  i_cells : list (list box); i_vars : list box }.
Definition ideal_start : ideal := Ideal [] [] [] [].

Definition i_push (b : box) (s : ideal) : ideal :=
  Ideal (i_made s) (i_symbols s) (i_cells s) (i_vars s ++ [b]).
Definition i_make (v : value) (s : ideal) : ideal :=
  i_push (Box (Made (length (i_made s))) v)
         (Ideal (i_made s ++ [v]) (i_symbols s) (i_cells s) (i_vars s)).
Definition i_make_cell (l : list box) (s : ideal) : ideal :=
  let s' := i_make (VObj (length (i_cells s))) s in
  Ideal (i_made s') (i_symbols s') (i_cells s' ++ [l]) (i_vars s').
Definition i_symbol (t : string) (s : ideal) : ideal :=
  match find t (i_symbols s) with
  | Some b => i_push b s
  | None => let s' := i_make (VSym t) s in
            Ideal (i_made s') (i_symbols s' ++ [(t, Box (Made (length (i_made s))) (VSym t))])
                  (i_cells s') (i_vars s')
  end.
Definition i_var (s : ideal) (x : nat) : res box :=
  match nth_error (i_vars s) x with Some b => Ok b | None => Err KeyError end.
Definition i_cell (s : ideal) (b : box) : res (nat * list box) :=
  match what b with
  | VObj k => match nth_error (i_cells s) k with Some l => Ok (k, l) | None => Err AttributeError end
  | _ => Err AttributeError
  end.
Definition i_set (k : nat) (l : list box) (s : ideal) : ideal :=
  Ideal (i_made s) (i_symbols s) (upd (i_cells s) k l) (i_vars s).

(** Stored is stored, read is read. *)
Definition i_step (o : op) (s : ideal) : res ideal :=
  match o with
  | ONil => Ok (i_push nil_ s)
  | OTrue => Ok (i_push true_ s)
  | OFalse => Ok (i_push false_ s)
  | OInt z => Ok (i_make (VInt z) s)
  | OBig z => Ok (i_make (VBig z) s)
  | ODbl f => Ok (i_make (VDbl f) s)
  | OStr t => Ok (i_make (VStr t) s)
  | OSym t => Ok (i_symbol t s)
  | OTake x => b <- i_var s x ;; Ok (i_push b s)
  | ONew n => Ok (i_make_cell (repeat nil_ n) s)
  | OArray n => Ok (i_make_cell (repeat nil_ (Z.to_nat n)) s)
  | OAt a i =>
      ba <- i_var s a ;; bi <- i_var s i ;; p <- i_cell s ba ;;
      z <- embedded_integer (what bi) ;; b <- py_get Hosted (snd p) (z - 1) ;; Ok (i_push b s)
  | OAtPut a i x =>
      ba <- i_var s a ;; bi <- i_var s i ;; bx <- i_var s x ;; p <- i_cell s ba ;;
      z <- embedded_integer (what bi) ;; l <- py_set Hosted (snd p) (z - 1) bx ;;
      Ok (i_push ba (i_set (fst p) l s))
  | OPutAll a x =>
      ba <- i_var s a ;; bx <- i_var s x ;; p <- i_cell s ba ;;
      Ok (i_push ba (i_set (fst p) (map (fun _ => bx) (snd p)) s))
  | OCopy a => ba <- i_var s a ;; p <- i_cell s ba ;; Ok (i_make_cell (snd p) s)
  | ORead o k =>
      bo <- i_var s o ;; p <- i_cell s bo ;;
      match nth_error (snd p) k with Some b => Ok (i_push b s) | None => Err IndexError end
  | OWrite o k x _ =>
      bo <- i_var s o ;; bx <- i_var s x ;; p <- i_cell s bo ;;
      if (k <? length (snd p))%nat then Ok (i_push bx (i_set (fst p) (upd (snd p) k bx) s))
      else Err IndexError
  | ORelayout o _ => bo <- i_var s o ;; p <- i_cell s bo ;; Ok (i_push bo s)
  end.
Fixpoint i_run (os : list op) (s : ideal) : res ideal :=
  match os with [] => Ok s | o :: os => s <- i_step o s ;; i_run os s end.

(** A state that a program can come to. *)
Definition reachable (m : mode) (s : mem) : Prop := exists os, run m os start = Ok s.
(** An object the program has. *)
Definition has (s : mem) (b : box) : Prop := In b (vars s).
