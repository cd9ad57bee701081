(** The nodes of the AST interpreter as objects that are rewritten while programs run
    (rtruffle/node.py, rtruffle/abstract_node.py, interpreter/ast/nodes): every node has slots for its
    children and a parent, and a node that is executed first replaces itself, in the slot of its
    parent, by what it is from then on.  A method can be entered again while its nodes are being
    executed. *)
From Coq Require Import ZArith Bool String Ascii List Lia.
From Verif Require Import Base LexModel ParseModel BcModel BcInterp AstModel.
Import ListNotations.
Open Scope nat_scope.
Open Scope list_scope.

(** * What nodes ask of the VM *)
(** What the VM does when a node asks for something: it ends, or it enters the method or the block
    [l] and goes on when that is left. *)
Inductive fin (X : Type) := FDone (v : value) | FRetn (v : value) | FAbrupt (x : astop X).
Arguments FDone {X}. Arguments FRetn {X}. Arguments FAbrupt {X}.
Inductive act (S X A : Type) : Type :=
| AEnd (o : out S X A)
| ACall (l : nat) (s : S) (k : fin X -> S -> act S X A).
Arguments AEnd {S X A}. Arguments ACall {S X A}.
(** The requests of [amachine] (AstModel), and whether a global has an association
    (universe.py 386-387 has_global). *)
Record vmachine (S X : Type) : Type := VMachine {
  v_send : text -> list value -> S -> act S X value;
  v_super : text -> list value -> S -> act S X value;
  v_glob : text -> S -> act S X value;
  v_unk : nat -> text -> S -> act S X value;
  v_blk : nat -> S -> act S X value;
  v_rd : nat -> vref -> S -> act S X value;
  v_wr : nat -> vref -> value -> S -> act S X unit;
  v_getf : nat -> nat -> S -> act S X value;
  v_setf : nat -> nat -> value -> S -> act S X unit;
  v_incf : nat -> nat -> S -> act S X value;
  v_inc : value -> S -> act S X value;
  v_nlr : nat -> value -> S -> act S X value;
  v_arr : list slit -> S -> act S X value;
  v_has_super : text -> S -> bool;
  v_has : text -> S -> bool;
  v_exn : exn -> X }.
Arguments v_send {S X}. Arguments v_super {S X}. Arguments v_glob {S X}. Arguments v_unk {S X}.
Arguments v_blk {S X}. Arguments v_rd {S X}. Arguments v_wr {S X}. Arguments v_getf {S X}.
Arguments v_setf {S X}. Arguments v_incf {S X}. Arguments v_inc {S X}. Arguments v_nlr {S X}.
Arguments v_arr {S X}. Arguments v_has_super {S X}. Arguments v_has {S X}. Arguments v_exn {S X}.

(** * The heap of nodes *)
Definition id := nat.
(** The classes of nodes.  OReadU, OWriteU, OGlobU and OMsgU are the ones that rewrite themselves:
    UninitializedReadNode, UninitializedWriteNode, _UninitializedGlobalReadNode and
    UninitializedMessageNode.  OReadI and OWriteI stand for the three classes of initialized reads and
    writes each (which of them: C40), OSendI for UnarySend, BinarySend, TernarySend and NArySend, OSpec
    for the eight classes of specialized/ a message can become.  OBody is _Invokable
    (vmobjects/method_ast.py 61-72), or the CatchNonLocalReturnNode in it
    (return_non_local_node.py 68-87).  Simplification: the read of self in a field node is given by its
    context level (it is never rewritten). *)
Inductive op (K : Type) :=
| OLit (v : value) | OArr (ls : list slit) | OBlk (label : nat)
| OReadU (v : vref) (k : nat) | OReadI (v : vref) (k : nat) | OSelf (k : nat)
| OWriteU (v : vref) (k : nat) | OWriteI (v : vref) (k : nat)
| OFldR (k i : nat) | OFldW (k i : nat) | OFldI (k i : nat)
| OGlobC (n : text) | OGlobU (n : text) (k : nat)
| OMsgU (sel : text) | OSendI (sel : text) | OSpec (kind : K) (sel : text) | OSuper (sel : text)
| OInc | ORetNL (k : nat) | ORetLoc | OSeq
| OIf (b : bool) | OIfNil | OIfNotNil | OIfElse (b : bool) | OIfNN | OWhile (b : bool) | OAnd | OOr
| OBody.
Arguments OLit {K}. Arguments OArr {K}. Arguments OBlk {K}. Arguments OReadU {K}. Arguments OReadI {K}.
Arguments OSelf {K}. Arguments OWriteU {K}. Arguments OWriteI {K}. Arguments OFldR {K}. Arguments OFldW {K}.
Arguments OFldI {K}. Arguments OGlobC {K}. Arguments OGlobU {K}. Arguments OMsgU {K}. Arguments OSendI {K}.
Arguments OSpec {K}. Arguments OSuper {K}. Arguments OInc {K}. Arguments ORetNL {K}. Arguments ORetLoc {K}.
Arguments OSeq {K}. Arguments OIf {K}. Arguments OIfNil {K}. Arguments OIfNotNil {K}. Arguments OIfElse {K}.
Arguments OIfNN {K}. Arguments OWhile {K}. Arguments OAnd {K}. Arguments OOr {K}. Arguments OBody {K}.
(** A node: its class, the slots for single children, the slot for a list of children (lists are
    objects of their own) and the parent (rtruffle/node.py 12-15). *)
Record hnode (K : Type) := HNode { h_op : op K; h_kids : list id; h_list : option nat; h_parent : option id }.
Arguments HNode {K}. Arguments h_op {K}. Arguments h_kids {K}. Arguments h_list {K}. Arguments h_parent {K}.
Record heap (K : Type) := Heap { h_nodes : list (hnode K); h_lists : list (list id) }.
Arguments Heap {K}. Arguments h_nodes {K}. Arguments h_lists {K}.

Section Heap.
Context {K : Type}.
Notation heap := (heap K).
Notation hnode := (hnode K).
Definition node_at (H : heap) (i : id) : option hnode := nth_error (h_nodes H) i.
Definition list_at (H : heap) (a : nat) : list id := nth a (h_lists H) [].
Definition elems (H : heap) (h : hnode) : list id :=
  match h_list h with Some a => list_at H a | None => [] end.
(** All children, in the order of their evaluation. *)
Definition all_kids (H : heap) (h : hnode) : list id := h_kids h ++ elems H h.
Definition child (H : heap) (i : id) (j : nat) : option id :=
  match node_at H i with Some h => nth_error (all_kids H h) j | None => None end.
Fixpoint set_nth {A} (l : list A) (i : nat) (x : A) : list A :=
  match l, i with
  | [], _ => []
  | _ :: l, O => x :: l
  | y :: l, S i => y :: set_nth l i x
  end.
Definition set_node (H : heap) (i : id) (h : hnode) : heap := Heap (set_nth (h_nodes H) i h) (h_lists H).
(** node.parent = p *)
Definition set_parent (p : id) (H : heap) (c : id) : heap :=
  match node_at H c with
  | Some h => set_node H c (HNode (h_op h) (h_kids h) (h_list h) (Some p))
  | None => H
  end.
(** Making a node: the constructors put their children into the slots, copy a list of children and,
    if [adopt], become the parent of them all (rtruffle/node.py 23-41 adopt_child, adopt_children). *)
Definition new_node (o : op K) (kids : list id) (l : option (list id)) (adopt : bool) (H : heap) : id * heap :=
  let i := length (h_nodes H) in
  let h := HNode o kids (match l with Some _ => Some (length (h_lists H)) | None => None end) None in
  let H := Heap (h_nodes H ++ [h]) (match l with Some l => h_lists H ++ [l] | None => h_lists H end) in
  (i, if adopt then fold_left (set_parent i) (kids ++ match l with Some l => l | None => [] end) H else H).
(** rtruffle/abstract_node.py 22-47 replace_child_with: single slots; in a list the old list is changed
    and the slot gets a copy. *)
Definition subst (old new c : id) : id := if c =? old then new else c.
Definition replace_child_with (p old new : id) (H : heap) : heap :=
  match node_at H p with
  | None => H
  | Some h =>
      let kids := map (subst old new) (h_kids h) in
      match h_list h with
      | None => set_node H p (HNode (h_op h) kids None (h_parent h))
      | Some a =>
          let l := list_at H a in
          if existsb (Nat.eqb old) l then
            let l := map (subst old new) l in
            let H := Heap (h_nodes H) (set_nth (h_lists H) a l ++ [l]) in
            set_node H p (HNode (h_op h) kids (Some (length (h_lists H) - 1)) (h_parent h))
          else set_node H p (HNode (h_op h) kids (Some a) (h_parent h))
      end
  end.
(** rtruffle/node.py 43-48 replace; a node without parent has None there: AttributeError. *)
Definition replace (old new : id) (H : heap) : option heap :=
  match node_at H old with
  | Some h => match h_parent h with
              | Some p => Some (set_parent p (replace_child_with p old new H) new)
              | None => None
              end
  | None => None
  end.
End Heap.

(** * Execution *)
Section Exec.
Context {S X K : Type}.
Variable V : vmachine S X.
(** Which specialized class a message becomes, given the selector, the receiver and the arguments of
    its first execution (uninitialized_node.py 33-48 and the can_specialize of specialized/), and
    whether a node of that class takes a receiver and arguments met later. *)
Variable kind_of : text -> list value -> option K.
Variable fits : K -> list value -> bool.
Notation sh := (S * heap K)%type.
Notation hout := (out sh (astop X)).

(** What the VM does, when entered methods and blocks run on the nodes in the heap. *)
Definition with_heap {Y A} (o : out S Y A) (H : heap K) : out sh Y A :=
  match o with
  | Done a s => Done a (s, H) | Retn v s => Retn v (s, H) | Abrupt x s => Abrupt x (s, H)
  | Hang => Hang | Stuck => Stuck
  end.
Fixpoint hact {A} (run : nat -> sh -> hout value) (a : act S X A) (H : heap K) : out sh X A :=
  match a with
  | AEnd o => with_heap o H
  | ACall l s k =>
      match run l (s, H) with
      | Done v (s, H) => hact run (k (FDone v) s) H
      | Retn v (s, H) => hact run (k (FRetn v) s) H
      | Abrupt x (s, H) => hact run (k (FAbrupt x) s) H
      | Hang => Hang
      | Stuck => Stuck
      end
  end.

Section Step.
Variable run : nat -> sh -> hout value.
(** Executing a child, in at most so many rounds of a loop. *)
Variable ev : nat -> id -> sh -> hout value.
Definition ask {A} (f : S -> act S X A) (x : sh) : hout A := lift (hact run (f (fst x)) (snd x)).
Definition hthrow {A} (e : exn) (x : sh) : hout A := Abrupt (AX (v_exn V e)) x.
(** The child in a slot, as it is when it is its turn. *)
Definition ev_child (n : nat) (i : id) (j : nat) (x : sh) : hout value :=
  match child (snd x) i j with Some c => ev n c x | None => Stuck end.
(** Single children from slot [j] on *)
Fixpoint ev_kids (n : nat) (i : id) (j cnt : nat) (vs : list value) (x : sh) : hout (list value) :=
  match cnt with
  | O => Done vs x
  | Datatypes.S cnt => bind (ev_child n i j x) (fun v x => ev_kids n i (Datatypes.S j) cnt (vs ++ [v]) x)
  end.
(** [arg.execute(frame) for arg in l], where [l] is a list object: what it holds when its turn comes *)
Fixpoint ev_list (n : nat) (a j cnt : nat) (vs : list value) (x : sh) : hout (list value) :=
  match cnt with
  | O => Done vs x
  | Datatypes.S cnt =>
      match nth_error (list_at (snd x) a) j with
      | Some c => bind (ev n c x) (fun v x => ev_list n a (Datatypes.S j) cnt (vs ++ [v]) x)
      | None => Stuck
      end
  end.
(** The receiver and the arguments: the single children, then the list as it is in its slot by then
    (message/abstract_node.py 23-30, message/generic_node.py 102-188, message/super_node.py 18-102). *)
Definition ev_all (n : nat) (i : id) (x : sh) : hout (list value) :=
  match node_at (snd x) i with
  | None => Stuck
  | Some h =>
      bind (ev_kids n i 0 (length (h_kids h)) [] x) (fun vs x =>
      match node_at (snd x) i with
      | None => Stuck
      | Some h => match h_list h with
                  | None => Done vs x
                  | Some a => ev_list n a 0 (length (list_at (snd x) a)) vs x
                  end
      end)
  end.
(** sequence_node.py 15-22: each child as it is in its slot by then *)
Fixpoint ev_seq (n : nat) (i : id) (j cnt : nat) (x : sh) : hout value :=
  match cnt with
  | O => Stuck
  | Datatypes.S O => ev_child n i j x
  | Datatypes.S cnt => bind (ev_child n i j x) (fun _ x => ev_seq n i (Datatypes.S j) cnt x)
  end.
(** literal_while.py 37-50 *)
Fixpoint hwhile (b : bool) (n : nat) (i : id) (x : sh) : hout value :=
  match n with
  | O => Hang
  | Datatypes.S n' =>
      bind (ev_child n i 0 x) (fun v x =>
      if is_bool b v then bind (ev_child n i 1 x) (fun _ x => hwhile b n' i x)
      else if is_bool (negb b) v then Done VNil x
      else hthrow NotImplementedErr x)
  end.
(** execute of the nodes that stay what they are; in this order: literal_node.py 11-12, block_node.py
    13-28, variable_node.py 124-207, field_node.py 22-70, global_read_node.py 68-69,
    message/generic_node.py 102-195, specialized/ (a node that is given a receiver or arguments of
    other kinds fails, C51 and C63; here it is [Stuck].  That it otherwise does what the message does is
    shown there), message/super_node.py, int_inc_node.py 12-14, return_non_local_node.py 24-49,
    sequence_node.py, literal_if.py, literal_while.py, literal_and_or.py. *)
Definition step (n : nat) (i : id) (o : op K) (x : sh) : hout value :=
  match o with
  | OLit v => Done v x
  | OArr ls => ask (v_arr V ls) x
  | OBlk label => ask (v_blk V label) x
  | OReadI v k => ask (v_rd V k v) x
  | OSelf k => ask (v_rd V k (VArg 0)) x
  | OWriteI v k => bind (ev_child n i 0 x) (fun a x => bind (ask (v_wr V k v a) x) (fun _ x => Done a x))
  | OFldR k f => ask (v_getf V k f) x
  | OFldW k f => bind (ev_child n i 0 x) (fun a x => bind (ask (v_setf V k f a) x) (fun _ x => Done a x))
  | OFldI k f => ask (v_incf V k f) x
  | OGlobC g => ask (v_glob V g) x
  | OSendI sel => bind (ev_all n i x) (fun vs x => ask (v_send V sel vs) x)
  | OSpec kind sel => bind (ev_all n i x) (fun vs x => if fits kind vs then ask (v_send V sel vs) x else Stuck)
  | OSuper sel => if v_has_super V sel (fst x) then bind (ev_all n i x) (fun vs x => ask (v_super V sel vs) x)
                  else hthrow PyException x
  | OInc => bind (ev_child n i 0 x) (fun v x => ask (v_inc V v) x)
  | ORetNL k => bind (ev_child n i 0 x) (fun v x => ask (v_nlr V k v) x)
  | ORetLoc => bind (ev_child n i 0 x) (fun v x => Abrupt (ALoc v) x)
  | OSeq => match node_at (snd x) i with Some h => ev_seq n i 0 (length (elems (snd x) h)) x | None => Stuck end
  | OIf b =>
      bind (ev_child n i 0 x) (fun v x =>
      if is_bool b v then ev_child n i 1 x
      else if is_bool (negb b) v then Done VNil x
      else hthrow NotImplementedErr x)
  | OIfNil => bind (ev_child n i 0 x) (fun v x => if is_nil v then ev_child n i 1 x else Done v x)
  | OIfNotNil => bind (ev_child n i 0 x) (fun v x => if is_nil v then Done v x else ev_child n i 1 x)
  | OIfElse b =>
      bind (ev_child n i 0 x) (fun v x =>
      if is_bool b v then ev_child n i 1 x
      else if is_bool (negb b) v then ev_child n i 2 x
      else hthrow NotImplementedErr x)
  | OIfNN => bind (ev_child n i 0 x) (fun v x => if is_nil v then ev_child n i 1 x else ev_child n i 2 x)
  | OWhile b => hwhile b n i x
  | OAnd =>
      bind (ev_child n i 0 x) (fun v x =>
      if is_bool true v then ev_child n i 1 x
      else if is_bool false v then Done VFalse x
      else hthrow AssertionError x)
  | OOr =>
      bind (ev_child n i 0 x) (fun v x =>
      if is_bool true v then Done VTrue x
      else if is_bool false v then ev_child n i 1 x
      else hthrow AssertionError x)
  | OReadU _ _ | OWriteU _ _ | OGlobU _ _ | OMsgU _ | OBody => Stuck
  end.
(** self.replace(node) where [node] has just been made *)
Definition become (i j : id) (H : heap K) (s : S) (f : sh -> hout value) : hout value :=
  match replace i j H with
  | Some H => f (s, H)
  | None => hthrow AttributeError (s, H)
  end.
(** execute.  The nodes that rewrite themselves: variable_node.py 22-28 and 73-81 (the value is adopted
    by the initialized write, not by the uninitialized one, 67-71 and 178-180), global_read_node.py
    38-50, message/uninitialized_node.py 27-78 (receiver and arguments first, then the children as they
    are by then are taken over by the new node). *)
Definition hstep (n : nat) (i : id) (x : sh) : hout value :=
  match node_at (snd x) i with
  | None => Stuck
  | Some h =>
      match h_op h with
      | OReadU v k =>
          let (j, H) := new_node (OReadI v k) [] None true (snd x) in
          become i j H (fst x) (step n j (OReadI v k))
      | OWriteU v k =>
          let (j, H) := new_node (OWriteI v k) (h_kids h) None true (snd x) in
          become i j H (fst x) (step n j (OWriteI v k))
      | OGlobU g k =>
          if v_has V g (fst x) then
            let (j, H) := new_node (OGlobC g) [] None true (snd x) in
            become i j H (fst x) (step n j (OGlobC g))
          else ask (v_unk V k g) x
      | OMsgU sel =>
          bind (ev_all n i x) (fun vs x =>
          match node_at (snd x) i with
          | None => Stuck
          | Some h =>
              let cs := all_kids (snd x) h in
              let (j, H) :=
                match kind_of sel vs with
                | Some kind => new_node (OSpec kind sel) cs None true (snd x)
                | None => if length vs <=? 3 then new_node (OSendI sel) cs None true (snd x)
                          else new_node (OSendI sel) (h_kids h) (Some (elems (snd x) h)) true (snd x)
                end in
              become i j H (fst x) (fun x => ask (v_send V sel vs) x)
          end)
      | o => step n i o x
      end
  end.
End Step.
(** A node of a tree, [d] bounding the depth of the tree. *)
Fixpoint hexec (run : nat -> sh -> hout value) (d n : nat) (i : id) (x : sh) : hout value :=
  match d with
  | O => Stuck
  | Datatypes.S d => hstep run (fun n i x => hexec run d n i x) n i x
  end.
(** Entering a method or a block: node.invokable.expr_or_sequence.execute(frame) (method_ast.py
    122-166).  [root l] is the _Invokable of [l].  [n] bounds the depth of calls and the rounds of
    loops. *)
Fixpoint hrun (root : nat -> option id) (d n : nat) (l : nat) (x : sh) : hout value :=
  match n with
  | O => Hang
  | Datatypes.S n' =>
      match root l with
      | None => Stuck
      | Some r => match child (snd x) r 0 with
                  | Some c => hexec (hrun root d n') d n c x
                  | None => Stuck
                  end
      end
  end.
End Exec.

(** * The nodes the compiler makes *)
Section Build.
Context {K : Type}.
(** The constructors called by compiler/ast/parser.py, children first.  UninitializedWriteNode does not
    adopt its value (variable_node.py 67-71).  Super sends have their arguments in slots up to three
    of them, messages have them in a list. *)
Fixpoint build (nd : node) (H : heap K) {struct nd} : id * heap K :=
  let builds := fix go (l : list node) (H : heap K) : list id * heap K :=
    match l with
    | [] => ([], H)
    | x :: l => let (c, H) := build x H in let (cs, H) := go l H in (c :: cs, H)
    end in
  let one o e adopt := let (c, H) := build e H in new_node o [c] None adopt H in
  let two o a b := let (c, H) := build a H in let (e, H) := build b H in new_node o [c; e] None true H in
  let three o a b f := let (c, H) := build a H in let (e, H) := build b H in let (g, H) := build f H in
                       new_node o [c; e; g] None true H in
  match nd with
  | NLit v => new_node (OLit v) [] None true H
  | NArr ls => new_node (OArr ls) [] None true H
  | NBlk _ l _ _ _ | NBlkT _ l _ _ => new_node (OBlk l) [] None true H
  | NRead v k => new_node (OReadU v k) [] None true H
  | NSelf k => new_node (OSelf k) [] None true H
  | NWrite v k e => one (OWriteU v k) e false
  | NFldR k i => new_node (OFldR k i) [] None true H
  | NFldW k i e => one (OFldW k i) e true
  | NFldI k i => new_node (OFldI k i) [] None true H
  | NGlob n => new_node (OGlobC n) [] None true H
  | NUnk n k => new_node (OGlobU n k) [] None true H
  | NSend sel r l => let (c, H) := build r H in let (cs, H) := builds l H in
                     new_node (OMsgU sel) [c] (Some cs) true H
  | NSuper sel r l => let (c, H) := build r H in let (cs, H) := builds l H in
                      if length cs <=? 2 then new_node (OSuper sel) (c :: cs) None true H
                      else new_node (OSuper sel) [c] (Some cs) true H
  | NInc r => one OInc r true
  | NRetNL k e => one (ORetNL k) e true
  | NRetLoc e => one ORetLoc e true
  | NSeq l => let (cs, H) := builds l H in new_node OSeq [] (Some cs) true H
  | NIf b c t => two (OIf b) c t
  | NIfNil c t => two OIfNil c t
  | NIfNotNil c t => two OIfNotNil c t
  | NIfElse b c t f => three (OIfElse b) c t f
  | NIfNN c t f => three OIfNN c t f
  | NWhile b c t => two (OWhile b) c t
  | NAnd c t => two OAnd c t
  | NOr c t => two OOr c t
  end.
(** The methods and blocks of a program, each with its _Invokable. *)
Fixpoint load (l : list node) (H : heap K) : list id * heap K :=
  match l with
  | [] => ([], H)
  | nd :: l => let (c, H) := build nd H in
               let (r, H) := new_node OBody [c] None true H in
               let (rs, H) := load l H in (r :: rs, H)
  end.
End Build.
