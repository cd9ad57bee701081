(** Which sources are accepted: the grammar of ParseSpec with the trees forgotten, and the
    three places in which a parser may accept more or less than it.  No parser is mentioned. *)
From Coq Require Import ZArith Bool String Ascii List.
From Verif Require Import Base TxtModel LexModel ParseModel ParseSpec.
Import ListNotations.
Open Scope nat_scope.
Open Scope list_scope.

Section Sources.
(** [next_ok ts]: the statements [ts] may follow a statement that has no period.
    [operand_ok s op ts]: [ts] may be the operand of [op]; [s] says that what stands before
    [op] is the bare word super.
    [target_ok v]: [v] may be assigned to. *)
Variable next_ok : tokens -> Prop.
Variable operand_ok : bool -> text -> tokens -> Prop.
Variable target_ok : text -> Prop.

(** The flag says that the tokens are just the word super. *)
Inductive W_primary : bool -> tokens -> Prop :=
| WP_name k n s : name_token k -> (s = true <-> n = t_super) -> W_primary s [(k, n)]
| WP_paren o ts c : W_expr ts -> W_primary false ((NewTerm, o) :: ts ++ [(EndTerm, c)])
| WP_block o ps pts ls lts ts c : G_params ps pts -> G_locals ls lts -> W_body ts ->
    W_primary false ((NewBlock, o) :: pts ++ lts ++ ts ++ [(EndBlock, c)])
| WP_lit l ts : G_lit l ts -> W_primary false ts
(** a primary followed by unary messages *)
with W_operand : bool -> tokens -> Prop :=
| WU_primary s ts : W_primary s ts -> W_operand s ts
| WU_send s ts k sel : W_operand s ts -> name_token k -> W_operand false (ts ++ [(k, sel)])
(** operators with their operands; the flag is about what stands before them *)
with W_operators : bool -> tokens -> Prop :=
| WO_nil s : W_operators s []
| WO_cons s k op s' ts ts' :
    operator_token k -> W_operand s' ts -> operand_ok s op ts -> W_operators s' ts' ->
    W_operators s ((k, op) :: ts ++ ts')
with W_part : tokens -> Prop :=
| WB s ts ts' : W_operand s ts -> W_operators s ts' -> W_part (ts ++ ts')
(** [key: part key: part ...] *)
with W_keys : tokens -> Prop :=
| WK_nil : W_keys []
| WK_cons key ts ts' : W_part ts -> W_keys ts' -> W_keys ((Keyword, key) :: ts ++ ts')
with W_expr : tokens -> Prop :=
| WE_eval ts ts' : W_part ts -> W_keys ts' -> W_expr (ts ++ ts')
| WE_assign k v a ts : name_token k -> target_ok v -> W_expr ts ->
    W_expr ((k, v) :: (Assign, a) :: ts)
with W_body : tokens -> Prop :=
| WS_empty : W_body []
| WS_last ts : W_expr ts -> W_body ts
| WS_more ts p ts' : W_expr ts -> W_body ts' -> W_body (ts ++ (Period, p) :: ts')
| WS_next ts ts' : W_expr ts -> next_ok ts' -> W_body ts' -> W_body (ts ++ ts')
| WS_return x ts dot : W_expr ts -> (dot = [] \/ exists p, dot = [(Period, p)]) ->
    W_body ((Exit, x) :: ts ++ dot).

Inductive W_method : tokens -> Prop :=
| WM_body sel ps pts eq o ls lts ts c :
    G_pattern sel ps pts -> G_locals ls lts -> W_body ts ->
    W_method (pts ++ (Equal, eq) :: (NewTerm, o) :: lts ++ ts ++ [(EndTerm, c)])
| WM_prim sel ps pts eq p : G_pattern sel ps pts ->
    W_method (pts ++ [(Equal, eq); (Primitive, p)]).
Inductive W_methods : tokens -> Prop :=
| WMS_nil : W_methods []
| WMS_cons ts ts' : W_method ts -> W_methods ts' -> W_methods (ts ++ ts').
(** fields and methods of one side of a class *)
Inductive W_members : tokens -> Prop :=
| WX fs fts mts : G_locals fs fts -> W_methods mts -> (fts = [] -> kind mts <> Or) ->
    W_members (fts ++ mts).
Inductive W_side : tokens -> Prop :=
| WCS_none : W_side []
| WCS_some s ts : W_members ts -> W_side ((Separator, s) :: ts).
Inductive W_class : tokens -> Prop :=
| WC name eq sts o ts side c :
    (sts = [] \/ exists s, sts = [(Identifier, s)]) -> W_members ts -> W_side side ->
    W_class ((Identifier, name) :: (Equal, eq) :: sts ++ (NewTerm, o) :: ts ++ side
               ++ [(EndTerm, c)]).
End Sources.

(** The language: a period between any two statements. *)
Definition never (ts : tokens) : Prop := False.
Definition every_operand (s : bool) (op : text) (ts : tokens) : Prop := True.
Definition source : tokens -> Prop := W_class never every_operand any_target.
Definition method_source : tokens -> Prop := W_method never every_operand any_target.

(** Without a period, the next statement starts with a token that cannot continue an
    expression. *)
Definition fresh_start (ts : tokens) : Prop :=
  In (kind ts) [NewTerm; NewBlock; Pound; STString; Integer; Double; Exit].
(** After + or -, the operand starts with the number 1 only if it is the number 1, unless
    the word super stands before the operator. *)
Definition bare_one (s : bool) (op : text) (ts : tokens) : Prop :=
  s = false -> op = t_plus \/ op = t_minus -> forall r, ts = (Integer, t_one) :: r -> r = [].

Definition ast_source : tokens -> Prop := W_class fresh_start every_operand assignable.
Definition bc_source : tokens -> Prop := W_class never bare_one any_target.
Definition ast_method_source : tokens -> Prop := W_method fresh_start every_operand assignable.
Definition bc_method_source : tokens -> Prop := W_method never bare_one any_target.

(** [self := ...] or [super := ...] stands nowhere in the source. *)
Definition no_assignment_to_self (ts : tokens) : Prop :=
  forall before k v a after, ts = before ++ (k, v) :: (Assign, a) :: after -> assignable v.
(** Nowhere in the source is the number 1 after + or - followed by a name. *)
Definition no_message_to_one (ts : tokens) : Prop :=
  forall before k op k' m after,
    ts = before ++ (k, op) :: (Integer, t_one) :: (k', m) :: after ->
    op = t_plus \/ op = t_minus -> ~ name_token k'.
