(** What SOM sources mean as trees: the grammar of expressions, blocks and methods, a
    printer, and the postfix forms of a tree.  None of it mentions a parser. *)
From Coq Require Import ZArith Bool String Ascii List.
From Verif Require Import Base TxtModel LexModel ParseModel.
Import ListNotations.
Open Scope nat_scope.
Open Scope list_scope.

Definition name_token (k : sym) : Prop := k = Identifier \/ k = Primitive.
Definition operator_token (k : sym) : Prop :=
  In k [Not; And; Or; Star; Div; Mod; Plus; Minus; Equal; More; Less; Comma; At; Per;
        OperatorSequence].

(** * Literals *)
Inductive G_lit : lit -> tokens -> Prop :=
| L_int d : G_lit (LInt false d) [(Integer, d)]
| L_neg_int m d : G_lit (LInt true d) [(Minus, m); (Integer, d)]
| L_dbl d : G_lit (LDbl false d) [(Double, d)]
| L_neg_dbl m d : G_lit (LDbl true d) [(Minus, m); (Double, d)]
| L_str t : G_lit (LStr t) [(STString, t)]
| L_sym p k t :
    name_token k \/ operator_token k \/ In k [Keyword; KeywordSequence; STString] ->
    G_lit (LSym t) [(Pound, p); (k, t)]
| L_arr p o c ls ts : G_lits ls ts ->
    G_lit (LArr ls) ((Pound, p) :: (NewTerm, o) :: ts ++ [(EndTerm, c)])
with G_lits : list lit -> tokens -> Prop :=
| L_nil : G_lits [] []
| L_cons l ts ls ts' : G_lit l ts -> G_lits ls ts' -> G_lits (l :: ls) (ts ++ ts').

(** * Declarations *)
(** [name name ...] *)
Inductive G_names : list text -> tokens -> Prop :=
| N_nil : G_names [] []
| N_cons k x xs ts : name_token k -> G_names xs ts -> G_names (x :: xs) ((k, x) :: ts).
(** nothing, or [| name name ... |] *)
Inductive G_locals : list text -> tokens -> Prop :=
| D_none : G_locals [] []
| D_some a xs ts b : G_names xs ts -> G_locals xs ((Or, a) :: ts ++ [(Or, b)]).
(** [:name :name ...] *)
Inductive G_colons : list text -> tokens -> Prop :=
| C_nil : G_colons [] []
| C_cons c k x xs ts : name_token k -> G_colons xs ts ->
    G_colons (x :: xs) ((Colon, c) :: (k, x) :: ts).
(** nothing, or [:name :name ... |] *)
Inductive G_params : list text -> tokens -> Prop :=
| Q_none : G_params [] []
| Q_some xs ts b : xs <> [] -> G_colons xs ts -> G_params xs (ts ++ [(Or, b)]).
(** [a := b := ...] *)
Inductive G_targets (target_ok : text -> Prop) : list text -> tokens -> Prop :=
| T_one k v a : name_token k -> target_ok v -> G_targets target_ok [v] [(k, v); (Assign, a)]
| T_more k v a vs ts : name_token k -> target_ok v -> G_targets target_ok vs ts ->
    G_targets target_ok (v :: vs) ((k, v) :: (Assign, a) :: ts).

(** * Expressions *)
(** The grammar of the language is the instance in which the three conditions below are
    always true; the theorems name the conditions under which each parser follows it.
    - [operand_ok s op s' ts]: about a binary message with operator [op] whose receiver is
      the bare word super iff [s], and whose operand, the tokens [ts], is it iff [s'];
    - [args_ok s args]: about a keyword message whose receiver is super iff [s];
    - [target_ok v]: about the target of an assignment. *)
Section Grammar.
Variable operand_ok : bool -> text -> bool -> tokens -> Prop.
Variable args_ok : bool -> list expr -> Prop.
Variable target_ok : text -> Prop.

(** In [G_primary e s ts], [G_unary e s ts], [G_binary e s ts] the tokens [ts] spell [e],
    and [s] says that they are just the word super.  A message to super is a [Send true]
    to self; everywhere else super is read as self. *)
Inductive G_primary : expr -> bool -> tokens -> Prop :=
| P_name k n : name_token k -> n <> t_super -> G_primary (Var n) false [(k, n)]
| P_super k : name_token k -> G_primary (Var t_self) true [(k, t_super)]
| P_paren o e ts c : G_expr e ts -> G_primary e false ((NewTerm, o) :: ts ++ [(EndTerm, c)])
| P_block o ps pts ls lts es ret ts c :
    G_params ps pts -> G_locals ls lts -> G_body es ret ts ->
    G_primary (Blk ps ls es ret) false ((NewBlock, o) :: pts ++ lts ++ ts ++ [(EndBlock, c)])
| P_lit l ts : G_lit l ts -> G_primary (Lit l) false ts
(** a primary followed by unary messages *)
with G_unary : expr -> bool -> tokens -> Prop :=
| U_primary e s ts : G_primary e s ts -> G_unary e s ts
| U_send r s ts k sel : G_unary r s ts -> name_token k ->
    G_unary (Send s r sel []) false (ts ++ [(k, sel)])
(** unary expressions joined by operators, grouped to the left *)
with G_binary : expr -> bool -> tokens -> Prop :=
| B_unary e s ts : G_unary e s ts -> G_binary e s ts
| B_send l s ts k op r s' ts' :
    G_binary l s ts -> operator_token k -> G_unary r s' ts' -> operand_ok s op s' ts' ->
    G_binary (Send s l op [r]) false (ts ++ (k, op) :: ts')
(** [key: binary key: binary ...]: one message with all the parts *)
with G_args : text -> list expr -> tokens -> Prop :=
| A_nil : G_args [] [] []
| A_cons key e s ts sel args ts' : G_binary e s ts -> G_args sel args ts' ->
    G_args (key ++ sel) (e :: args) ((Keyword, key) :: ts ++ ts')
(** a binary expression, perhaps with one keyword message *)
with G_eval : expr -> tokens -> Prop :=
| K_binary e s ts : G_binary e s ts -> G_eval e ts
| K_send r s ts sel args ts' :
    G_binary r s ts -> G_args sel args ts' -> args <> [] -> args_ok s args ->
    G_eval (Send s r sel args) (ts ++ ts')
with G_expr : expr -> tokens -> Prop :=
| E_eval e ts : G_eval e ts -> G_expr e ts
| E_assign vs vts e ts : G_targets target_ok vs vts -> G_eval e ts ->
    G_expr (Asgn vs e) (vts ++ ts)
(** statements separated by periods, the last one perhaps [^ e]; a period may end it *)
with G_body : list expr -> option expr -> tokens -> Prop :=
| S_empty : G_body [] None []
| S_last e ts : G_expr e ts -> G_body [e] None ts
| S_more e ts p es ret ts' : G_expr e ts -> G_body es ret ts' ->
    G_body (e :: es) ret (ts ++ (Period, p) :: ts')
| S_return x e ts dot : G_expr e ts -> (dot = [] \/ exists p, dot = [(Period, p)]) ->
    G_body [] (Some e) ((Exit, x) :: ts ++ dot).

(** [selector and parameters = ( | locals | body )], or [... = primitive] *)
Inductive G_pattern : text -> list text -> tokens -> Prop :=
| M_unary k s : name_token k -> G_pattern s [] [(k, s)]
| M_binary k s k' x : operator_token k -> name_token k' -> G_pattern s [x] [(k, s); (k', x)]
| M_keyword s xs ts : xs <> [] -> G_key_params s xs ts -> G_pattern s xs ts
with G_key_params : text -> list text -> tokens -> Prop :=
| KP_nil : G_key_params [] [] []
| KP_cons s k x sel xs ts : name_token k -> G_key_params sel xs ts ->
    G_key_params (s ++ sel) (x :: xs) ((Keyword, s) :: (k, x) :: ts).
Inductive G_method : method -> tokens -> Prop :=
| M_body sel ps pts eq o ls lts es ret ts c :
    G_pattern sel ps pts -> G_locals ls lts -> G_body es ret ts ->
    G_method {| m_selector := sel; m_params := ps; m_body := Some (ls, es, ret) |}
      (pts ++ (Equal, eq) :: (NewTerm, o) :: lts ++ ts ++ [(EndTerm, c)])
| M_prim sel ps pts eq p : G_pattern sel ps pts ->
    G_method {| m_selector := sel; m_params := ps; m_body := None |}
      (pts ++ [(Equal, eq); (Primitive, p)]).

Inductive G_methods : list method -> tokens -> Prop :=
| MS_nil : G_methods [] []
| MS_cons m ts ms ts' : G_method m ts -> G_methods ms ts' -> G_methods (m :: ms) (ts ++ ts').
(** [Name = Super ( | fields | methods ---- | fields | methods )].  A bar at the start opens
    the fields, so that a method called [|] cannot come first where there are none. *)
Inductive G_class : classdef method -> tokens -> Prop :=
| CD name eq sup sts o fs fts ms mts side cfs cms c :
    (sup = None /\ sts = [] \/ exists s, sup = Some s /\ sts = [(Identifier, s)]) ->
    G_locals fs fts -> G_methods ms mts -> (fts = [] -> kind mts <> Or) ->
    G_side cfs cms side ->
    G_class {| c_name := name; c_super := sup; c_fields := fs; c_methods := ms;
               c_class_fields := cfs; c_class_methods := cms |}
      ((Identifier, name) :: (Equal, eq) :: sts ++ (NewTerm, o) :: fts ++ mts ++ side
         ++ [(EndTerm, c)])
with G_side : list text -> list method -> tokens -> Prop :=
| CS_none : G_side [] [] []
| CS_some s cfs cts cms mts : G_locals cfs cts -> G_methods cms mts ->
    (cts = [] -> kind mts <> Or) -> G_side cfs cms ((Separator, s) :: cts ++ mts).
End Grammar.

(** The grammar of the language. *)
Definition any_operand : bool -> text -> bool -> tokens -> Prop := fun _ _ _ _ => True.
Definition any_args : bool -> list expr -> Prop := fun _ _ => True.
Definition any_target : text -> Prop := fun _ => True.
Definition spells (e : expr) (ts : tokens) : Prop := G_expr any_operand any_args any_target e ts.

(** * Conditions under which the parsers follow the grammar *)
(** No message is sent anywhere in the expression. *)
Fixpoint no_send (e : expr) : bool :=
  match e with
  | Var _ | Lit _ => true
  | Send _ _ _ _ => false
  | Asgn _ e => no_send e
  | Blk _ _ es ret => forallb no_send es && match ret with Some e => no_send e | None => true end
  end.
(** The operand of a binary message is not the bare word super. *)
Definition not_super_operand (s : bool) (op : text) (s' : bool) (ts : tokens) : Prop := s' = false.
(** The first argument of a keyword message to super sends no message. *)
Definition quiet_first_arg (s : bool) (args : list expr) : Prop :=
  s = true -> match args with a :: _ => no_send a = true | [] => True end.
Definition assignable (v : text) : Prop := v <> t_self /\ v <> t_super.
(** After + or - (not sent to super) the operand starts with the number 1 only if it is
    the number 1. *)
Definition whole_one (s : bool) (op : text) (s' : bool) (ts : tokens) : Prop :=
  not_super_operand s op s' ts /\
  (s = false -> op = t_plus \/ op = t_minus ->
   forall r, ts = (Integer, t_one) :: r -> r = []).

(** What may follow an expression: not something that would continue it. *)
Definition ends_expression (k : sym) : Prop :=
  ~ name_token k /\ ~ operator_token k /\ k <> Keyword /\ k <> Assign.

(** * A printer *)
(** A word that may name a variable.  (A receiver of super sends is printed as super.) *)
Definition ident (t : text) : token := (Identifier, t).
Definition paren (ts : tokens) : tokens := (NewTerm, str "(") :: ts ++ [(EndTerm, str ")")].

Fixpoint show_lit (l : lit) : tokens :=
  match l with
  | LInt n d => (if n then [(Minus, str "-")] else []) ++ [(Integer, d)]
  | LDbl n d => (if n then [(Minus, str "-")] else []) ++ [(Double, d)]
  | LStr t => [(STString, t)]
  | LSym t => [(Pound, str "#"); (STString, t)]
  | LArr ls => (Pound, str "#") :: (NewTerm, str "(") :: flat_map show_lit ls ++ [(EndTerm, str ")")]
  end.

(** How a send is written; its parts are given with the number of arguments. *)
Inductive level := LPrimary | LUnary | LBinary | LKeyword | LAssign.
Definition colon : ascii := ":"%char.
(** A selector with one argument and no colon at its end is an operator. *)
Definition ends_with_colon (s : text) : bool :=
  match rev s with c :: _ => Ascii.eqb c colon | [] => false end.
Definition level_of (e : expr) : level :=
  match e with
  | Var _ | Lit _ | Blk _ _ _ _ => LPrimary
  | Send _ _ _ [] => LUnary
  | Send _ _ sel [_] => if ends_with_colon sel then LKeyword else LBinary
  | Send _ _ _ _ => LKeyword
  | Asgn _ _ => LAssign
  end.
Definition rank (l : level) : nat :=
  match l with LPrimary => 0 | LUnary => 1 | LBinary => 2 | LKeyword => 3 | LAssign => 4 end.
(** The keyword parts of a selector: cut after each colon. *)
Fixpoint parts (s : text) : list text :=
  match s with
  | [] => []
  | c :: r =>
      if Ascii.eqb c colon then [c] :: parts r
      else match parts r with p :: ps => (c :: p) :: ps | [] => [[c]] end
  end.

(** [wrap n e ts]: [ts] in parentheses unless [e] binds at least as tightly as level [n]. *)
Definition wrap (n : nat) (e : expr) (ts : tokens) : tokens :=
  if Nat.leb (rank (level_of e)) n then ts else paren ts.
Fixpoint show (e : expr) : tokens :=
  match e with
  | Var n => [ident n]
  | Lit l => show_lit l
  | Send s r sel args =>
      let receiver n := if s then [ident t_super] else wrap n r (show r) in
      match args with
      | [] => receiver 1 ++ [ident sel]
      | _ =>
          if rank (level_of e) =? 2 then
            receiver 2 ++ (OperatorSequence, sel) :: flat_map (fun a => wrap 1 a (show a)) args
          else
            receiver 2 ++
            (fix go (as_ : list expr) (ps : list text) {struct as_} : tokens :=
               match as_, ps with
               | a :: as', p :: ps' => (Keyword, p) :: wrap 2 a (show a) ++ go as' ps'
               | _, _ => []
               end) args (parts sel)
      end
  | Asgn vs e => flat_map (fun v => [ident v; (Assign, str ":=")]) vs ++ wrap 3 e (show e)
  | Blk ps ls es ret =>
      (NewBlock, str "[")
        :: (match ps with [] => [] | _ => flat_map (fun p => [(Colon, str ":"); ident p]) ps
                                            ++ [(Or, str "|")] end)
        ++ (match ls with [] => [] | _ => (Or, str "|") :: map ident ls ++ [(Or, str "|")] end)
        ++ flat_map (fun e => show e ++ [(Period, str ".")]) es
        ++ (match ret with Some e => (Exit, str "^") :: show e | None => [] end)
        ++ [(EndBlock, str "]")]
  end.

(** Trees that can be written: variables are not called super, the receiver of a message
    to super is self, the number of arguments fits the selector, assignments have a
    target. The conditions are those of the grammar. *)
Definition arity_fits (sel : text) (n : nat) : Prop :=
  match n with
  | 0 => True
  | 1 => ends_with_colon sel = true -> length (parts sel) = 1
  | _ => length (parts sel) = n
  end.
Section Writable.
Variable operand_ok : bool -> text -> bool -> tokens -> Prop.
Variable args_ok : bool -> list expr -> Prop.
Variable target_ok : text -> Prop.
Inductive writable : expr -> Prop :=
| W_var n : n <> t_super -> writable (Var n)
| W_lit l : writable (Lit l)
| W_send s r sel args : writable r -> Forall writable args -> arity_fits sel (length args) ->
    (s = true -> r = Var t_self) ->
    (forall a, args = [a] -> ends_with_colon sel = false ->
               operand_ok s sel false (wrap 1 a (show a))) ->
    (level_of (Send s r sel args) = LKeyword -> args_ok s args) ->
    writable (Send s r sel args)
| W_asgn vs e : vs <> [] -> Forall target_ok vs -> writable e -> writable (Asgn vs e)
| W_blk ps ls es ret : Forall writable es ->
    (forall e, ret = Some e -> writable e) -> writable (Blk ps ls es ret).
End Writable.

(** * Postfix forms *)
(** The code that pushes a literal: arrays are filled by messages. *)
Fixpoint push_lit (l : lit) : list ev :=
  match l with
  | LArr ls =>
      PushArray :: PushIndex (length ls) :: SendMsg false t_new ::
      (fix go (i : nat) (ls : list lit) : list ev :=
         match ls with
         | [] => []
         | l :: ls' => PushIndex i :: push_lit l ++ SendMsg false t_at_put :: go (S i) ls'
         end) 1 ls
  | _ => [PushConst l]
  end.
(** [postfix e c]: [c] computes the receiver and the arguments of each message of [e] from
    left to right and then sends it; [+ 1] and [- 1] may be one instruction. *)
Inductive postfix : expr -> list ev -> Prop :=
| X_var n : postfix (Var n) [PushVar n]
| X_lit l : postfix (Lit l) (push_lit l)
| X_send s r sel args c cs : postfix r c -> postfixes args cs ->
    postfix (Send s r sel args) (c ++ cs ++ [SendMsg s sel])
| X_inc r c : postfix r c -> postfix (Send false r t_plus [Lit (LInt false t_one)]) (c ++ [IncTop])
| X_dec r c : postfix r c -> postfix (Send false r t_minus [Lit (LInt false t_one)]) (c ++ [DecTop])
| X_asgn vs e c : postfix e c ->
    postfix (Asgn vs e) (c ++ repeat DupTop (length vs) ++ map PopVar vs)
| X_blk ps ls es ret c : block_code es ret c -> postfix (Blk ps ls es ret) [PushBlock ps ls c]
with postfixes : list expr -> list ev -> Prop :=
| X_nil : postfixes [] []
| X_cons e c es cs : postfix e c -> postfixes es cs -> postfixes (e :: es) (c ++ cs)
(** a block answers its last statement, nil if it has none; [^] leaves the method *)
with block_code : list expr -> option expr -> list ev -> Prop :=
| Y_empty : block_code [] None [PushNil; RetLocal]
| Y_last e c : postfix e c -> block_code [e] None (c ++ [RetLocal])
| Y_return e c : postfix e c -> block_code [] (Some e) (c ++ [RetNonLocal])
| Y_more e c es ret cs : postfix e c -> es <> [] \/ ret <> None -> block_code es ret cs ->
    block_code (e :: es) ret (c ++ PopTop :: cs).
(** a method answers self unless it ends with [^] *)
Inductive method_code : list expr -> option expr -> list ev -> Prop :=
| Z_empty : method_code [] None [RetSelf]
| Z_last e c : postfix e c -> method_code [e] None (c ++ [RetSelf])
| Z_return e c : postfix e c -> method_code [] (Some e) (c ++ [RetLocal])
| Z_return_self : method_code [] (Some (Var t_self)) [RetSelf]
| Z_more e c es ret cs : postfix e c -> method_code es ret cs ->
    method_code (e :: es) ret (c ++ PopTop :: cs).

(** A compiled method for a method. *)
Inductive compiles : method -> bc_method -> Prop :=
| CM_prim sel ps : compiles {| m_selector := sel; m_params := ps; m_body := None |}
                            {| bm_selector := sel; bm_params := ps; bm_body := None |}
| CM_body sel ps ls es ret c : method_code es ret c ->
    compiles {| m_selector := sel; m_params := ps; m_body := Some (ls, es, ret) |}
             {| bm_selector := sel; bm_params := ps; bm_body := Some (ls, c) |}.
Definition compiles_class (c : classdef method) (b : classdef bc_method) : Prop :=
  c_name _ b = c_name _ c /\ c_super _ b = c_super _ c /\
  c_fields _ b = c_fields _ c /\ Forall2 compiles (c_methods _ c) (c_methods _ b) /\
  c_class_fields _ b = c_class_fields _ c /\
  Forall2 compiles (c_class_methods _ c) (c_class_methods _ b).
