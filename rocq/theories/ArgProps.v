(** The command line and the shell: properties C50 and C53. *)
From Coq Require Import ZArith Bool String Ascii List Lia.
From Verif Require Import Base ArgModel ArgSpec ArgProofs.
Import ListNotations.
Open Scope list_scope.
Open Scope string_scope.

Definition avoid_initial := {| a_cp := None; a_dump := false; a_rest := []; a_others := false |}.

(** C50: options, then a program path that is not an option word, then anything: the
    program gets its class name and everything after it, unchanged and in order. *)
Theorem C50_program_arguments : forall avoid os prog rest dir file name,
  ~ In prog option_words -> dir_and_file prog dir file -> class_name_of file name ->
  exists cp dump, meant_classpath os cp /\ (dump = true <-> In ODump os)
    /\ handle_arguments avoid (flat_map written os ++ prog :: rest)
       = ARun (if String.eqb dir "" then cp else dir :: cp) dump (name :: rest).
Proof.
  intros avoid os prog rest dir file name N D C.
  unfold handle_arguments. fold avoid_initial. rewrite loop_opts by auto.
  set (a := fold_left apply_opt os avoid_initial).
  assert (Ha : a_others a = false) by (unfold a; rewrite apply_others; auto).
  assert (Hr : a_rest a = []) by (unfold a; rewrite apply_rest; auto).
  destruct (not_option_word prog N) as (N1 & N2 & N3 & N4).
  cbn [arg_loop]. rewrite N1, N2, N3, N4. cbn [andb]. rewrite loop_rest by auto. cbn [with_arg a_cp a_dump a_rest].
  rewrite Hr. cbn [app]. destruct (path_split_unique _ _ _ _ D C) as (e & ->).
  exists (match a_cp a with Some cp => cp | None => ["."] end), (a_dump a).
  split; [apply (meant_ok os avoid_initial eq_refl)|]. split; [|auto].
  unfold a. rewrite dump_fold. cbn. split; [intros [X|X]; [discriminate|auto]|auto].
Qed.
Print Assumptions C50_program_arguments.

(** Without a program the options alone take effect. *)
Theorem C50_options_only : forall avoid os,
  exists cp dump, meant_classpath os cp /\ (dump = true <-> In ODump os)
    /\ handle_arguments avoid (flat_map written os) = ARun cp dump [].
Proof.
  intros avoid os. rewrite <- (app_nil_r (flat_map written os)).
  unfold handle_arguments. fold avoid_initial. rewrite loop_opts by auto. cbn [arg_loop].
  rewrite apply_rest. cbn [a_rest].
  exists (match a_cp (fold_left apply_opt os avoid_initial) with Some cp => cp | None => ["."] end),
     (a_dump (fold_left apply_opt os avoid_initial)).
  split; [apply (meant_ok os avoid_initial eq_refl)|]. split; [|auto].
  rewrite dump_fold. cbn. split; [intros [X|X]; [discriminate|auto]|auto].
Qed.
Print Assumptions C50_options_only.

(** A request for help, or a -cp with nothing after it, ends the program. *)
Theorem C50_usage : forall os,
  handle_arguments false (flat_map written os ++ ["-cp"]) = AExit
  /\ forall h rest, In h help_words -> handle_arguments false (flat_map written os ++ h :: rest) = AExit.
Proof.
  intros os. split; [|intros h rest I]; unfold handle_arguments; fold avoid_initial; rewrite loop_opts by auto;
    cbn [arg_loop]; rewrite apply_others; cbn [a_others avoid_initial negb].
  - reflexivity.
  - destruct I as [<-|[<-|[<-|[]]]]; reflexivity.
Qed.
Print Assumptions C50_usage.

(** Every argument list is of one of these forms. *)
Theorem C50_forms_exhaustive : forall args, exists os,
  args = flat_map written os
  \/ args = (flat_map written os ++ ["-cp"])%list
  \/ exists x rest, args = (flat_map written os ++ x :: rest)%list /\ (In x help_words \/ ~ In x option_words).
Proof.
  intros args. remember (length args) as n eqn:L. revert args L. induction n as [n IH] using lt_wf_ind. intros args L.
  destruct args as [|x t]; [exists []; auto|].
  assert (G : forall o t', x :: t = (written o ++ t')%list -> exists os,
     x :: t = flat_map written os \/ x :: t = (flat_map written os ++ ["-cp"])%list
     \/ exists y rest, x :: t = (flat_map written os ++ y :: rest)%list /\ (In y help_words \/ ~ In y option_words)).
  { intros o t' E. destruct (IH (length t')) with (args := t') as (os & H); auto.
    { apply (f_equal (@length string)) in E. rewrite app_length in E. cbn in L. destruct o; cbn in *; lia. }
    exists (o :: os). cbn [flat_map]. rewrite E. destruct H as [-> |[-> |(y & rest & -> & H)]].
    - auto.
    - right. left. apply app_assoc.
    - right. right. exists y, rest. split; auto. apply app_assoc. }
  destruct (in_dec string_dec x option_words) as [I|I].
  2:{ exists []. right. right. exists x, t. auto. }
  destruct I as [<-|[<-|[<-|I]]].
  - destruct t as [|d t]; [exists []; auto|]. apply (G (OCp d) t). auto.
  - apply (G ODump t). auto.
  - apply (G ONoGc t). auto.
  - exists []. right. right. exists x, t. auto.
Qed.
Print Assumptions C50_forms_exhaustive.

(** Classes are taken from the program's directory first, then from the class path in
    its order. *)
Theorem C50_search_order : forall ex cp name f,
  find_class ex cp name = Some f <->
  exists pre p post, cp = (pre ++ p :: post)%list /\ f = p ++ "/" ++ name ++ ".som" /\ ex f = true
    /\ forall q, In q pre -> ex (q ++ "/" ++ name ++ ".som") = false.
Proof.
  intros ex cp name f. induction cp as [|p t IH]; cbn [find_class].
  - split; [discriminate|]. intros (pre & p & post & E & _). destruct pre; discriminate.
  - cbv zeta. destruct (ex (p ++ "/" ++ name ++ ".som")) eqn:E.
    + split.
      * intros [= <-]. exists [], p, t. split; [auto|split; [auto|split; [auto|intros q []]]].
      * intros (pre & p' & post & X & -> & F & H). destruct pre as [|p0 pre]; cbn in X; injection X as <- ->; auto.
        rewrite H in E; [discriminate|left; auto].
    + rewrite IH. split.
      * intros (pre & p' & post & -> & -> & F & H). exists (p :: pre), p', post.
        split; [auto|split; [auto|split; [auto|]]]. intros q [<-|I]; auto.
      * intros (pre & p' & post & X & -> & F & H). destruct pre as [|p0 pre]; cbn in X; injection X as <- ->.
        -- congruence.
        -- exists pre, p', post. split; [auto|split; [auto|split; [auto|]]]. intros q I. apply H. right; auto.
Qed.
Print Assumptions C50_search_order.

Theorem C50_program_directory_first_partial : forall avoid os prog rest dir file name ex cp dump args c,
  ~ In prog option_words -> dir_and_file prog dir file -> class_name_of file name -> dir <> "" ->
  handle_arguments avoid (flat_map written os ++ prog :: rest) = ARun cp dump args ->
  ex (dir ++ "/" ++ c ++ ".som") = true -> find_class ex cp c = Some (dir ++ "/" ++ c ++ ".som").
Proof.
  intros avoid os prog rest dir file name ex cp dump args c N D C Nd R E.
  destruct (C50_program_arguments avoid os prog rest dir file name N D C) as (cp' & dump' & _ & _ & R').
  rewrite R' in R. apply String.eqb_neq in Nd. rewrite Nd in R. injection R as <- _ _.
  cbn [find_class]. rewrite E. auto.
Qed.
Print Assumptions C50_program_directory_first_partial.

(** A program in the root directory: "/" is not searched at all. *)
Theorem C50_root_directory_refuted : exists args,
  args = ["/Foo.som"; "x"]
  /\ dir_and_file "/Foo.som" "" "Foo.som"
  /\ forall avoid, handle_arguments avoid args = ARun ["."] false ["Foo"; "x"].
Proof.
  eexists. split; [reflexivity|]. split.
  - right. split; [reflexivity|]. intros H. cbn in H. repeat destruct H as [H|H]; try discriminate; auto.
  - intros []; reflexivity.
Qed.
Print Assumptions C50_root_directory_refuted.

Example C50_nonvacuous :
  handle_arguments false ["-cp"; "Smalltalk:lib"; "-d"; "Examples/Hello.som"; "-d"; "-cp"; "x"]
  = ARun ["Examples"; "Smalltalk"; "lib"] true ["Hello"; "-d"; "-cp"; "x"]
  /\ ~ In "Examples/Hello.som" option_words
  /\ dir_and_file "Examples/Hello.som" "Examples" "Hello.som" /\ class_name_of "Hello.som" "Hello".
Proof.
  assert (Z : forall c s, rsplit1 c s = None -> no_char c s) by (intros; apply rsplit1_none; auto).
  split; [reflexivity|]. split; [intros H; cbn in H; repeat destruct H as [H|H]; try discriminate; auto|].
  split; [right; split; [reflexivity|apply Z; reflexivity]|]. right. exists "som". split; [reflexivity|apply Z; reflexivity].
Qed.

(** C53: a line of input reaches the shell as one statement.  [nl] is the newline. *)
Definition nl : ascii := ascii_of_nat 10.
Lemma ends_nl s c : ends_with_newline (s ++ String c "") = Ascii.eqb c nl.
Proof. induction s as [|a s IH]; [reflexivity|]. cbn [append ends_with_newline]. destruct (s ++ String c "") eqn:E; auto. destruct s; discriminate. Qed.
Lemma drop_snoc s c : drop_last (s ++ String c "") = s.
Proof. induction s as [|a s IH]; [reflexivity|]. cbn [append drop_last]. destruct (s ++ String c "") eqn:E; [destruct s; discriminate|]. rewrite IH. auto. Qed.
Lemma no_nl_end s : no_char nl s -> ends_with_newline s = false.
Proof.
  induction s as [|a s IH]; [reflexivity|]. intros N. cbn [ends_with_newline]. destruct s as [|b s].
  - destruct (Ascii.eqb_spec a (ascii_of_nat 10)); auto. exfalso. apply N. left. auto.
  - apply IH. intros H. apply N. right; auto.
Qed.
Lemma str_app_assoc a b c : (a ++ b) ++ c = a ++ b ++ c.
Proof. induction a; cbn; congruence. Qed.
Lemma str_app_nil a : a ++ "" = a.
Proof. induction a; cbn; congruence. Qed.

(** A line that arrives in pieces of any size, the last of which ends with its newline,
    is answered without the newline, and the rest of the input is left. *)
Theorem C53_line_partial : forall pieces last rest answer,
  Forall (fun p => p <> "" /\ no_char nl p) pieces -> no_char nl last ->
  raw_input answer (pieces ++ (last ++ String nl "") :: rest) = (answer ++ String.concat "" pieces ++ last, rest).
Proof.
  induction pieces as [|p pieces IH]; intros last rest answer F N; cbn [app raw_input].
  - replace (Nat.eqb (String.length (last ++ String nl "")) 0) with false.
    + rewrite ends_nl, drop_snoc. reflexivity.
    + destruct last; reflexivity.
  - inversion F as [|? ? [Np Cp] F']; subst. replace (Nat.eqb (String.length p) 0) with false.
    + rewrite (no_nl_end p Cp), IH by auto. f_equal. rewrite str_app_assoc. f_equal.
      destruct pieces as [|q r].
      * cbn [String.concat append]. reflexivity.
      * cbn [String.concat]. rewrite str_app_assoc. reflexivity.
    + destruct p; [congruence|reflexivity].
Qed.
Print Assumptions C53_line_partial.

(** The end of the input ends the line. *)
Theorem C53_end_of_input : forall pieces rest answer,
  Forall (fun p => p <> "" /\ no_char nl p) pieces ->
  raw_input answer (pieces ++ "" :: rest) = (answer ++ String.concat "" pieces, rest).
Proof.
  induction pieces as [|p pieces IH]; intros rest answer F; cbn [app raw_input].
  - cbn. rewrite str_app_nil. auto.
  - inversion F as [|? ? [Np Cp] F']; subst. replace (Nat.eqb (String.length p) 0) with false.
    + rewrite (no_nl_end p Cp), IH by auto. f_equal. rewrite str_app_assoc. f_equal.
      destruct pieces as [|q r]; cbn [String.concat]; auto. apply str_app_nil.
    + destruct p; [congruence|reflexivity].
Qed.
Print Assumptions C53_end_of_input.

(** Input that arrives with several lines in one piece is one statement. *)
Theorem C53_lines_refuted : exists chunk line1 line2,
  chunk = line1 ++ String nl "" ++ line2 ++ String nl "" /\ no_char nl line1 /\ no_char nl line2
  /\ (String.length chunk <= 32)%nat
  /\ fst (raw_input "" [chunk]) <> line1.
Proof.
  exists ("1 + 2" ++ String nl "" ++ "3 + 4" ++ String nl ""), "1 + 2", "3 + 4".
  assert (Z : forall c s, rsplit1 c s = None -> no_char c s) by (intros; apply rsplit1_none; auto).
  split; [reflexivity|]. split; [apply Z; reflexivity|]. split; [apply Z; reflexivity|].
  split; [cbn; lia|]. discriminate.
Qed.
Print Assumptions C53_lines_refuted.

Example C53_nonvacuous :
  let p := ["'a longer statement, two pieces'"; " println. 3"] in
  Forall (fun p => p <> "" /\ no_char nl p) p
  /\ raw_input "" (p ++ [(" + 4" ++ String nl "")%string; "next"])%list = ("'a longer statement, two pieces' println. 3 + 4", ["next"]).
Proof.
  assert (Z : forall c s, rsplit1 c s = None -> no_char c s) by (intros; apply rsplit1_none; auto).
  split; [|reflexivity]. repeat constructor; try discriminate; apply Z; reflexivity.
Qed.
