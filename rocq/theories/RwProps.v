(** C68: the nodes of a program rewrite themselves while it runs, also when the method they belong to is
    entered again meanwhile, and no run of the program differs from one on nodes that never change. *)
From Coq Require Import ZArith Bool String Ascii List Lia.
From Verif Require Import Base LexModel LexSpec ParseModel BcModel BcInterp AstModel RwModel RwSpec RwProofs RwExec RwBuild.
Import ListNotations.
Open Scope nat_scope.
Open Scope list_scope.

(** Whatever is called, one after the other, on a program whose nodes have just been made: every call
    ends as it does on the compiled bodies, and leaves the same state.  No node fails to be replaced.
    For messages that take, once specialized, any receiver and arguments. *)
Theorem C68_rewriting : forall S X K (V : vmachine S X) (kind_of : text -> list value -> option K) fits
  bodies roots H d n ls s,
  lawful V -> (forall sel vs kind ws, kind_of sel vs = Some kind -> fits kind ws = true) ->
  load bodies (Heap [] []) = (roots, H) -> deepest bodies <= d ->
  map seen (calls (hrun V kind_of fits (nth_error roots) d n) ls (s, H)) = calls (arun V bodies n) ls s.
Proof.
  intros S X K V kind_of fits bodies roots H d n ls s Law Fits Ld Hd.
  pose proof (loaded V kind_of s bodies roots H Ld) as I. revert I. generalize H. clear Ld H. revert s.
  induction ls as [|l ls IH]; intros s H I; cbn [calls map]; [reflexivity|].
  pose proof (hrun_sim V kind_of fits bodies (nth_error roots) Law d Hd n l (s, H) I) as Q. cbn [fst] in Q.
  destruct (hrun V kind_of fits (nth_error roots) d n l (s, H)) as [v (s', H')|v (s', H')|e (s', H')| |];
    cbn [sim fst snd] in Q.
  1-3: destruct Q as (-> & E & W); cbn [seen fst]; f_equal; apply IH; split; [exact W|];
       eapply bok_ext; [exact E | apply I].
  - rewrite Q. reflexivity.
  - destruct Q as [-> | (sel & vs & kind & ws & Q1 & Q2)]; [reflexivity|].
    rewrite (Fits _ _ _ ws Q1) in Q2. discriminate.
Qed.
Print Assumptions C68_rewriting.

(** For specialized messages that do not take everything (C51, C63): a call ends as on the compiled
    bodies, or with such a message having been given what it does not take. *)
Theorem C68_specialized_partial : forall S X K (V : vmachine S X) (kind_of : text -> list value -> option K) fits
  bodies roots H d n l s,
  lawful V -> load bodies (Heap [] []) = (roots, H) -> deepest bodies <= d ->
  seen (hrun V kind_of fits (nth_error roots) d n l (s, H)) = arun V bodies n l s \/
  hrun V kind_of fits (nth_error roots) d n l (s, H) = Stuck /\
  exists sel vs kind ws, kind_of sel vs = Some kind /\ fits kind ws = false.
Proof.
  intros S X K V kind_of fits bodies roots H d n l s Law Ld Hd.
  pose proof (loaded V kind_of s bodies roots H Ld) as I.
  pose proof (hrun_sim V kind_of fits bodies (nth_error roots) Law d Hd n l (s, H) I) as Q. cbn [fst] in Q.
  destruct (hrun V kind_of fits (nth_error roots) d n l (s, H)) as [v (s', H')|v (s', H')|e (s', H')| |];
    cbn [sim fst snd seen] in *.
  1-3: left; symmetry; apply Q.
  - left. symmetry. exact Q.
  - destruct Q as [-> | Q]; auto.
Qed.
Print Assumptions C68_specialized_partial.

(** * A recursive method, with the nodes of its calls rewritten in the calls they make *)
(** frames; the methods [-], [+], [isZero] of integers are primitives, [sum:] is the method 0 *)
Definition frames := list (list value).
Definition no_act {A} : act frames exn A := AEnd Stuck.
Definition ex_send (sel : text) (vs : list value) (s : frames) : act frames exn value :=
  match vs with
  | [VInt a; VInt b] =>
      if text_eqb sel (chars "-") then AEnd (Done (VInt (a - b)) s)
      else if text_eqb sel (chars "+") then AEnd (Done (VInt (a + b)) s)
      else if text_eqb sel (chars "sum:") then
        ACall 0 (vs :: s) (fun f s' => match f with
          | FDone v => AEnd (Done v (tl s')) | FRetn v => AEnd (Done v (tl s'))
          | FAbrupt (ALoc v) => AEnd (Done v (tl s')) | FAbrupt (AX e) => AEnd (Abrupt e (tl s')) end)
      else AEnd (Abrupt PyException s)
  | [VInt a] => AEnd (Done (if Z.eqb a 0 then VTrue else VFalse) s)
  | _ => AEnd (Abrupt PyException s)
  end.
Definition ex_vm : vmachine frames exn :=
  VMachine frames exn ex_send (fun _ _ _ => no_act)
    (fun _ s => AEnd (Done (VInt 7) s)) (fun _ _ s => AEnd (Done (VInt 7) s)) (fun _ _ => no_act)
    (fun _ v s => match v with VArg i => AEnd (Done (nth i (hd [] s) VNil) s) | _ => no_act end)
    (fun _ v a s => match v, s with VArg i, f :: s => AEnd (Done tt (set_nth f i a :: s)) | _, _ => no_act end)
    (fun _ _ _ => no_act) (fun _ _ _ _ => no_act) (fun _ _ _ => no_act) (fun _ _ => no_act)
    (fun _ _ _ => no_act) (fun _ _ => no_act) (fun _ _ => true) (fun _ _ => true) (fun e => e).
Lemma ex_lawful : lawful ex_vm.
Proof.
  assert (G : forall A (a : act frames exn A) s, grows ex_vm s a).
  { induction a as [o|l s' k IH]; intros s.
    - destruct o; cbn; auto; intros g; auto.
    - cbn. split; [intros g; auto|]. intros f s'' _. apply IH. }
  constructor; intros; auto.
Qed.
(** sum: n = ( ^ n isZero ifTrue: [Seven] ifFalse: [n + (self sum: (n - 1))] ), where n is an argument *)
Definition ex_sum : node :=
  NIfElse true (NSend (chars "isZero") (NRead (VArg 1) 0) []) (NUnk (chars "Seven") 0)
    (NSend (chars "+") (NRead (VArg 1) 0)
       [NSend (chars "sum:") (NSelf 0) [NSend (chars "-") (NRead (VArg 1) 0) [NLit (VInt 1)]]]).
(** main: a with: b = ( ^ self sum: (a := b) ) *)
Definition ex_main : node := NSend (chars "sum:") (NSelf 0) [NWrite (VArg 1) 0 (NRead (VArg 2) 0)].
Definition ex_loaded : list id * heap unit := load [ex_sum; ex_main] (Heap [] []).
Definition ex_run n := hrun ex_vm (fun _ _ => None : option unit) (fun _ _ => true) (nth_error (fst ex_loaded)) 5 n.
Definition ex_state : frames := [[VInt 0; VInt 9; VInt 3]].
Definition is_u (o : op unit) : bool := match o with OReadU _ _ | OWriteU _ _ | OGlobU _ _ | OMsgU _ => true | _ => false end.
(** The nodes that can be reached from a node. *)
Fixpoint reach (d : nat) (H : heap unit) (i : id) : list (op unit) :=
  match d with
  | O => []
  | Datatypes.S d => match node_at H i with
                     | Some h => h_op h :: concat (map (reach d H) (all_kids H h))
                     | None => []
                     end
  end.
Definition left_of (o : out (frames * heap unit) (astop exn) value) : list nat :=
  match o with
  | Done _ x => map (fun r => length (filter is_u (reach 9 (snd x) r))) (fst ex_loaded)
  | _ => []
  end.
Example C68_nonvacuous :
  lawful ex_vm /\ deepest [ex_sum; ex_main] <= 5 /\
  seen (ex_run 9 1 (ex_state, snd ex_loaded)) = Done (VInt 13) [[VInt 0; VInt 3; VInt 3]] /\
  (** nodes that rewrite themselves: eight in the one and three in the other method, none after a run *)
  map (fun r => length (filter is_u (reach 9 (snd ex_loaded) r))) (fst ex_loaded) = [8; 3] /\
  left_of (ex_run 9 1 (ex_state, snd ex_loaded)) = [0; 0].
Proof.
  split; [exact ex_lawful|]. split; [vm_compute; lia|]. split; [vm_compute; reflexivity|].
  split; [vm_compute; reflexivity|]. vm_compute. reflexivity.
Qed.
