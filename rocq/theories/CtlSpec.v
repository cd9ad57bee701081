(** Control structures as messages: each literal block given to them is evaluated in an
    activation of its own, by the primitive the receiver has for the message. *)
From Coq Require Import ZArith Bool String Ascii List Lia.
From Verif Require Import Base LexModel ParseModel BcModel BcInterp BcSpec BcTab VmModel VmSpec CtlModel.
Import ListNotations.
Open Scope nat_scope.
Open Scope list_scope.

(** * What the messages do *)
Section Messages.
Context {S X : Type}.
Notation out := (out S X).
Notation carg := (carg S X).
(** The messages for which there are no primitives.  They are methods of the core library,
    which is not part of the repository: False>>ifTrue: answers nil, the others evaluate the
    block for nil or the block for other objects and answer the receiver if it is not given. *)
Definition core_lib (sel : text) (v : value) (args : list carg) : option (S -> out value) :=
  let nil := match v with VNil => true | _ => false end in
  match args with
  | [a] =>
      if text_eqb sel (str "ifNil:") then Some (if nil then invoke_or_answer a else fun s => Done v s)
      else if text_eqb sel (str "ifNotNil:") then Some (if nil then fun s => Done v s else invoke_or_answer a)
      else match v with
           | VFalse => if text_eqb sel (str "ifTrue:") then Some (fun s => Done VNil s) else None
           | _ => None
           end
  | [a; b] =>
      if text_eqb sel (str "ifNil:ifNotNil:") then Some (invoke_or_answer (if nil then a else b))
      else if text_eqb sel (str "ifNotNil:ifNil:") then Some (invoke_or_answer (if nil then b else a))
      else if text_eqb sel (str "ifFalse:ifTrue:") then
        match v with
        | VTrue => Some (invoke_or_answer b)
        | VFalse => Some (invoke_or_answer a)
        | _ => None
        end
      else None
  | _ => None
  end.
(** What the message does, if the receiver has it. *)
Definition control (sel : text) (v : value) (args : list carg) : option (S -> out value) :=
  match (match v with VTrue => true_prim sel args | VFalse => false_prim sel args | _ => None end) with
  | Some f => Some f
  | None => core_lib sel v args
  end.
Definition is_boolean (v : value) : bool := is_true v || is_false v.
(** A condition that answers true or false.  (What a loop does otherwise is seen below.) *)
Definition boolean (test : nat -> S -> out value) (n : nat) (s : S) : out value :=
  bind (test n s) (fun v s => if is_boolean v then Done v s else Stuck).
Definition answer (m : option (S -> out value)) (s : S) : out value :=
  match m with Some f => f s | None => Stuck end.
End Messages.

(** * Evaluation *)
(** The value of an expression in activation [fid] of method [mid], nested in [L]; [mk] are the
    operations of an activation.  The blocks of control structures are evaluated in new
    activations inside [fid].  Simplification: the activation of such a block has no receiver
    (no name denotes it) and the object for the block is not put in the store (nothing but the
    primitive gets hold of it). *)
Section Eval.
Variable fields : list text.
Variable mid : nat.
Variable mk : nat -> machine vm stop.
(** [^ v] in a block with an activation of its own that is evaluated by a control structure. *)
Variable back : nat -> value -> vm -> vout value.
Definition mreturn (L : lexenv) (fid : nat) (v : value) (s : vm) : vout value :=
  match L with
  | [(true, _)] => Retn v s
  | (true, _) :: _ => bind (m_nlr (mk fid) (depth (map snd L)) v s) (fun v s => Retn v s)
  | _ => back fid v s
  end.
Definition inner (ls : list (text * nat)) (L : lexenv) : lexenv := (false, Level [ls] [t_block_self]) :: L.
Fixpoint meval (e : src) (L : lexenv) (fid n : nat) (s : vm) {struct e} : vout value :=
  let block (b : src) (n : nat) (s : vm) : vout value :=
    match b with
    | SBlk _ _ ls ss ret _ =>
        let new := length (v_frames s) in
        (fix go (ss : list src) (s : vm) : vout value :=
           match ss with
           | [] => match ret with
                   | Some e => bind (meval e (inner ls L) new n s) (fun v s => mreturn (inner ls L) new v s)
                   | None => Done VNil s
                   end
           | e :: ss' => match ss', ret with
                         | [], None => meval e (inner ls L) new n s
                         | _, _ => bind (meval e (inner ls L) new n s) (fun _ s => go ss' s)
                         end
           end) ss (push_frame mid [] (Some fid) s)
    | _ => Stuck
    end in
  match e with
  | SVar v => read_var fields (mk fid) (map snd L) v s
  | SLit l => eval_lit (mk fid) l s
  | SBlk label _ _ _ _ _ => m_blk (mk fid) label s
  | SInc e => bind (meval e L fid n s) (fun v s => m_inc (mk fid) v s)
  | SDec e => bind (meval e L fid n s) (fun v s => m_dec (mk fid) v s)
  | SAsgn vs e =>
      bind (meval e L fid n s) (fun v s =>
      bind (write_vars fields (mk fid) (map snd L) vs v s) (fun _ s => Done v s))
  | SSend sup r sel args =>
      match special_form sup r sel args, args with
      | Some (KWhile b), [a] => while_prim b n (boolean (block r)) (block a) s
      | Some _, [a] =>
          bind (meval r L fid n s) (fun v s => answer (control sel v [ABlk (block a n)]) s)
      | Some _, [a; b] =>
          bind (meval r L fid n s) (fun v s =>
          answer (control sel v [ABlk (block a n); ABlk (block b n)]) s)
      | _, _ =>
          bind (meval r L fid n s) (fun v s =>
          (fix go (l : list src) (vs : list value) (s : vm) : vout value :=
             match l with
             | [] => if sup then m_super (mk fid) sel vs s else m_send (mk fid) sel vs s
             | a :: l => bind (meval a L fid n s) (fun v s => go l (vs ++ [v]) s)
             end) args [v] s)
      end
  end.
Fixpoint meval_block (ss : list src) (ret : option src) (L : lexenv) (fid n : nat) (s : vm) : vout value :=
  match ss with
  | [] => match ret with
          | Some e => bind (meval e L fid n s) (fun v s => mreturn L fid v s)
          | None => Done VNil s
          end
  | e :: ss' => match ss', ret with
                | [], None => meval e L fid n s
                | _, _ => bind (meval e L fid n s) (fun _ s => meval_block ss' ret L fid n s)
                end
  end.
Fixpoint meval_method (ss : list src) (ret : option src) (L : lexenv) (fid n : nat) (s : vm) : vout value :=
  match ss with
  | [] => match ret with
          | Some e => bind (meval e L fid n s) (fun v s => Retn v s)
          | None => bind (m_rd (mk fid) 0 (VArg 0) s) (fun v s => Retn v s)
          end
  | e :: ss => bind (meval e L fid n s) (fun _ s => meval_method ss ret L fid n s)
  end.
End Eval.

(** * Running *)
(** The receiver of an activation, of the one around it if it has none. *)
Fixpoint own_receiver (fs : list frame) (n fid : nat) : option value :=
  match nth_error fs fid with
  | Some f => match f_args f, f_outer f with
              | v :: _, _ => Some v
              | [], Some o => match n with O => None | S n => own_receiver fs n o end
              | [], None => None
              end
  | None => None
  end.
(** As [VmModel.self_of]: out of blocks as long as the receiver is one. *)
Fixpoint self_in (st : store) (fs : list frame) (n : nat) (v : value) : option value :=
  match the_block st v with
  | None => Some v
  | Some (_, _, o) =>
      match n with
      | O => None
      | S n => match own_receiver fs (length fs) o with Some w => self_in st fs n w | None => None end
      end
  end.
Definition self_at (s : vm) (fid : nat) : option value :=
  match own_receiver (v_frames s) (length (v_frames s)) fid with
  | Some v => self_in (v_store s) (v_frames s) (length (v_frames s)) v
  | None => None
  end.
Section Run.
Variable P : prog.
Variable M : nat -> option msrc.
Section Ops.
Variable call : callee -> list value -> vm -> vout value.
Definition msg_glob (fid : nat) (n : text) (s : vm) : vout value :=
  match assoc_glob n (s_globs (v_store s)) with
  | Some v => Done v s
  | None => match self_at s fid with
            | Some self => vm_send2 P call t_unknown self (sym_value n) s
            | None => Hang
            end
  end.
(** As [VmSpec.do_return]. *)
Definition msg_return (stk : list nat) (fid : nat) (v : value) (s : vm) : vout value :=
  let h := home_of s fid in
  if existsb (Nat.eqb h) stk then Abrupt (XRet h v) s
  else match receiver (v_frames s) h, receiver (v_frames s) fid with
       | Some r, Some blk =>
           match self_in (v_store s) (v_frames s) (length (v_frames s)) r with
           | Some self => vm_send2 P call t_escaped self blk s
           | None => Hang
           end
       | _, _ => Hang
       end.
(** A return from a block of a control structure whose home activation is not running any
    more is left open. *)
Definition msg_back (stk : list nat) (fid : nat) (v : value) (s : vm) : vout value :=
  let h := home_of s fid in
  if existsb (Nat.eqb h) stk then Abrupt (XRet h v) s else Stuck.
Definition msg_machine (stk : list nat) (mid fid : nat) : machine vm stop := {|
  m_send := vm_send P call; m_super := vm_super P call mid; m_glob := msg_glob fid; m_blk := vm_blk fid;
  m_rd := vm_rd fid; m_wr := vm_wr fid; m_getf := vm_getf fid; m_setf := vm_setf fid;
  m_incf := vm_incf P fid; m_inc := vm_inc P; m_dec := vm_dec P;
  m_nlr := fun _ v s => msg_return stk fid v s |}.
End Ops.
Definition lex_env (m : msrc) : lexenv := [(true, Level [ms_locals m] (t_self :: ms_params m))].
(** The block literals of a method with the nesting around them. *)
Definition lex_of (m : msrc) : list (src * lexenv) := lex_body (ms_body m) (ms_ret m) (lex_env m).
Definition lex_block (m : msrc) (l : nat) : option (src * lexenv) :=
  find (fun p => label_of (fst p) =? l) (lex_of m).
Definition msg_body (mid : nat) (blk : option nat) (mk : nat -> machine vm stop)
  (back : nat -> value -> vm -> vout value) (fid n : nat) (s : vm) : vout value :=
  match M mid, blk with
  | Some m, None => meval_method (ms_fields m) mid mk back (ms_body m) (ms_ret m) (lex_env m) fid n s
  | Some m, Some l =>
      match lex_block m l with
      | Some (SBlk _ ps ls ss ret _, L) =>
          bind (meval_block (ms_fields m) mid mk back ss ret ((true, Level [ls] (t_block_self :: ps)) :: L) fid n s)
               (fun v s => Retn v s)
      | _ => Stuck
      end
  | None, _ => Stuck
  end.
(** As [VmSpec.spec_at], with control structures as messages. *)
Fixpoint msg_at (n : nat) (stk : list nat) (c : callee) (blk : option (nat * nat)) (args : list value)
  (s : vm) {struct n} : vout value :=
  match n with
  | O => Hang
  | S n =>
      let fid := length (v_frames s) in
      match c with
      | CPrim p =>
          run_act P (fun c args s => msg_at n stk c None args s)
                    (fun m l o args s => msg_at n stk (CMeth m) (Some (l, o)) args s)
                    n (p_prim P p args) s
      | CMeth m =>
          let call c args s := msg_at n (fid :: stk) c None args s in
          activation
            (fun fid => msg_body m (option_map fst blk) (msg_machine call (fid :: stk) m)
                          (msg_back (fid :: stk)) fid n)
            m args (option_map snd blk) s
      end
  end.
End Run.
Definition messages (P : prog) (M : nat -> option msrc) (n : nat) (c : callee) (args : list value) (s : vm)
  : vout value := msg_at P M n [] c None args s.

(** * Which programs are considered *)
(** The locals declared by the blocks of control structures in an expression, however deep,
    as long as they are in the same activation when they are inlined. *)
Fixpoint inl_ids (e : src) : list nat :=
  let block (b : src) : list nat :=
    match b with
    | SBlk _ _ ls ss ret _ =>
        map snd ls ++ flat_map inl_ids ss ++ match ret with Some e => inl_ids e | None => [] end
    | _ => []
    end in
  match e with
  | SVar _ | SLit _ | SBlk _ _ _ _ _ _ => []
  | SInc e | SDec e | SAsgn _ e => inl_ids e
  | SSend sup r sel args =>
      match special_form sup r sel args with
      | Some (KWhile _) => block r ++ flat_map block args
      | Some _ => inl_ids r ++ flat_map block args
      | None => inl_ids r ++ flat_map inl_ids args
      end
  end.
Definition body_ids (ss : list src) (ret : option src) : list nat :=
  flat_map inl_ids ss ++ match ret with Some e => inl_ids e | None => [] end.
(** The blocks of loops declare no locals. *)
Fixpoint plain (e : src) : Prop :=
  let block (b : src) : Prop :=
    match b with
    | SBlk _ _ ls ss ret _ =>
        fold_right (fun e q => plain e /\ q) True ss /\ match ret with Some e => plain e | None => True end
    | _ => True
    end in
  match e with
  | SVar _ | SLit _ | SBlk _ _ _ _ _ _ => True
  | SInc e | SDec e | SAsgn _ e => plain e
  | SSend sup r sel args =>
      match special_form sup r sel args with
      | Some (KWhile _) => inl_ids e = [] /\ block r /\ fold_right (fun e q => block e /\ q) True args
      | Some _ => plain r /\ fold_right (fun e q => block e /\ q) True args
      | None => plain r /\ fold_right (fun e q => plain e /\ q) True args
      end
  end.
(** No declaration of an activation has the number of another, and loops are plain. *)
Definition tidy (ls : list (text * nat)) (ss : list src) (ret : option src) : Prop :=
  NoDup (map snd ls ++ body_ids ss ret) /\ Forall plain ss /\
  match ret with Some e => plain e | None => True end.
Definition tidy_method (m : msrc) : Prop :=
  tidy (ms_locals m) (ms_body m) (ms_ret m) /\
  Forall (fun p => match fst p with SBlk _ _ ls ss ret _ => tidy ls ss ret | _ => True end) (ms_blocks m).

(** The same but for the activations blocks were created in. *)
Definition obj_alike (o1 o2 : obj) : Prop :=
  match o1, o2 with
  | OBlk m l _, OBlk m' l' _ => m = m' /\ l = l'
  | _, _ => o1 = o2
  end.
Definition alike (st1 st2 : store) : Prop :=
  s_globs st1 = s_globs st2 /\ s_out st1 = s_out st2 /\ Forall2 obj_alike (s_objs st1) (s_objs st2).
(** Lookup and primitives do not depend on that. *)
Inductive blind : act -> Prop :=
| B_ret v : blind (ARet v)
| B_err e : blind (AErr e)
| B_store f k : (forall st1 st2, alike st1 st2 -> alike (f st1) (f st2) /\ k st1 = k st2) ->
    (forall st, blind (k st)) -> blind (AStore f k)
| B_send sel args k : (forall v, blind (k v)) -> blind (ASend sel args k)
| B_invoke c args k : (forall v, blind (k v)) -> blind (AInvoke c args k)
| B_eval b args k : (forall v, blind (k v)) -> blind (AEval b args k)
| B_while c b on k : blind k -> blind (AWhile c b on k).
Definition blind_prog (P : prog) : Prop :=
  (forall sel r st1 st2, alike st1 st2 -> p_find P sel r st1 = p_find P sel r st2) /\
  (forall mid sel st1 st2, alike st1 st2 -> p_super P mid sel st1 = p_super P mid sel st2) /\
  (forall sel args st1 st2, alike st1 st2 ->
     fst (p_dnu P sel args st1) = fst (p_dnu P sel args st2) /\
     alike (snd (p_dnu P sel args st1)) (snd (p_dnu P sel args st2))) /\
  (forall p args, blind (p_prim P p args)).
(** The same end, answer, globals and output, and the same objects but for the numbers of the
    activations blocks were created in. *)
Definition same_seen (o1 o2 : vout value) : Prop :=
  match o1, o2 with
  | Done v1 s1, Done v2 s2 => v1 = v2 /\ alike (v_store s1) (v_store s2)
  | Abrupt (XPy e1) s1, Abrupt (XPy e2) s2 => e1 = e2 /\ alike (v_store s1) (v_store s2)
  | Hang, Hang => True
  | _, _ => False
  end.

(** * Loops as messages *)
(** Evaluating block [x] in state [s] ends with [v] in state [s']. *)
Definition evaluates (P : prog) (x : value) (s : vm) (v : value) (s' : vm) : Prop :=
  exists m l o n, the_block (v_store s) x = Some (m, l, o) /\
    call_at P n (CMeth m) (Some (l, o)) [x] s = Done v s'.
(** The condition [c] is evaluated, and as long as it answers [on], the body [b] and again the
    condition. *)
Inductive repeats (P : prog) (on : value) (c b : value) : vm -> vm -> Prop :=
| rep_end s v s' : evaluates P c s v s' -> v <> on -> repeats P on c b s s'
| rep_round s s1 v s2 s3 : evaluates P c s on s1 -> evaluates P b s1 v s2 ->
    repeats P on c b s2 s3 -> repeats P on c b s s3.
