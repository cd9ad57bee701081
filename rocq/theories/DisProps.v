(** C69: the listings of methods (option -d). *)
From Coq Require Import ZArith Bool String Ascii List Lia.
From Verif Require Import Base LexModel LexSpec ParseModel BcModel BcInterp BcSpec BcTab BcCode BcHeight BcProps
  NtxModel NtxSpec NtxProofs DisModel DisSpec DisText DisProofs DisBack DisCode.
Import ListNotations.
Open Scope nat_scope.
Open Scope list_scope.

(** What is written for a method whose bytes are instructions is its listing: a line for
    every instruction, in order, with its address, its name and its operands, and the
    listing of a block where the block is made. *)
Theorem C69_listing : forall ob m,
  (forall m', shown m m' -> exists code, decodes 0 (me_bytes m') code) ->
  forall ind t, listed ob m ind t <-> dump_method ob m ind = (t, None).
Proof. apply listing. Qed.
Print Assumptions C69_listing.

(** The bytes of a compiled method, and of the blocks in it, are instructions. *)
Theorem C69_compiled_partial : forall ce ps ls ss ret period m,
  forallb ok_src ss = true -> ok_ret ret = true -> in_layer t_self ls = None ->
  compile_method ce ps ls ss ret period = Ok m ->
  forall m', shown m m' -> exists code, decodes 0 (me_bytes m') code.
Proof.
  intros ce ps ls ss ret period m H1 H2 H3 H4 m' Hs. destruct (shown_inside _ _ Hs) as (outer & Hi).
  destruct (coded_closed ce outer m' (all_coded ce true ps ls ss ret period m H1 H2 H3 H4 outer m' Hi)) as (code & Hd & _).
  eauto.
Qed.
Print Assumptions C69_compiled_partial.

(** Whatever a compiled method does, execution is always at an instruction of its listing,
    and it goes on at the next instruction or at the jump target that the listing gives. *)
Theorem C69_execution_partial : forall ce ps ls ss ret period m outer m' ob,
  forallb ok_src ss = true -> ok_ret ret = true -> in_layer t_self ls = None ->
  compile_method ce ps ls ss ret period = Ok m ->
  In (outer, m') (([], m) :: inside m []) ->
  exists code, decodes 0 (me_bytes m') code /\
    forall S X (μ : machine S X) s0 pc st s, lawful μ -> well_behaved μ ->
    visits μ outer m' s0 pc st s ->
    exists b ops, In (pc, b, ops) code /\
      forall pc' st' s',
      step μ (Z.to_nat (me_max m')) (map snd (me_locals m') :: outer) (me_lits m') (me_bytes m') pc st s = Done (pc', st') s' ->
      pc' = pc + blen b \/
      exists tof tto, decimal pc' tto /\
        operands ob m' pc b ops (chars "(jump offset: " ++ tof ++ chars " -> jump target: " ++ tto ++ chars ")").
Proof.
  intros ce ps ls ss ret period m outer m' ob H1 H2 H3 H4 Hi.
  pose proof (all_coded ce true ps ls ss ret period m H1 H2 H3 H4 outer m' Hi) as Hc.
  destruct (coded_closed ce outer m' Hc) as (code & Hd & HF). exists code. split; auto.
  intros S X μ s0 pc st s L W Hv.
  destruct (visits_addresses _ _ μ outer m' s0 pc st s eq_refl Hd HF Hv) as [Ha|Ha].
  - apply in_map_iff in Ha. destruct Ha as ([[a b] ops] & Ea & Hx). cbn [address fst] in Ea. subst a.
    exists b, ops. split; auto. intros pc' st' s' Hst.
    destruct (decodes_at _ _ _ Hd _ Hx) as (pre & post & Eb & Epc & Hi' & Hl & _). cbn [fst snd address] in *. cbn [Nat.add] in Epc.
    assert (N0 : nth_error (me_bytes m') pc = Some (num b)).
    { rewrite Eb, <- Epc, nth_error_app2, Nat.sub_diag by lia. reflexivity. }
    pose proof (step_goes _ _ _ _ _ _ _ _ _ _ _ _ N0 Hst) as G.
    rewrite Forall_forall in HF. specialize (HF _ Hx). unfold well_made in HF.
    destruct (jump_form b) as [[k wide]|] eqn:Ej; [|auto].
    destruct HF as (u & v & -> & Hw & _). destruct G as (u' & v' & E1 & E2 & G).
    assert (u' = u /\ v' = v) as [-> ->].
    { rewrite Eb, nth_error_app2 in E1, E2 by lia. rewrite <- Epc in E1, E2.
      replace (length pre + 1 - length pre) with 1 in E1 by lia.
      replace (length pre + 2 - length pre) with 2 in E2 by lia. cbn in E1, E2. split; congruence. }
    destruct G as [->|G]; [auto|]. right.
    assert (EO : (if wide then u + 256 * v else u) = u + 256 * v) by (destruct wide; auto; rewrite (Hw eq_refl); lia).
    rewrite EO in G. exists (nat_str (u + 256 * v)), (nat_str pc'). split; [apply decimal_str; reflexivity|].
    destruct k; first [destruct G; subst pc'; eapply about_back; [exact Ej|apply decimal_str; reflexivity|];
        apply written_str; unfold nat_str; f_equal; lia
      |subst pc'; eapply about_jump; [exact Ej|discriminate|apply decimal_str; reflexivity|apply decimal_str; reflexivity]].
  - exfalso. destruct (visits_run μ outer m' s0 pc st s Hv 1) as (n & Hn).
    apply (coded_safe ce outer m' Hc S X μ L W (n + 1) s0). rewrite Hn. cbn [run]. unfold step.
    rewrite (proj2 (nth_error_None (me_bytes m') pc)) by (subst pc; lia). reflexivity.
Qed.
Print Assumptions C69_execution_partial.

(** A compiled method has a listing unless it, or a block that would be listed with it, is a
    trivial method; str() is taken to work, and the class to have names for the fields. *)
Theorem C69_succeeds_partial : forall ce ps ls ss ret period m ob,
  forallb ok_src ss = true -> ok_ret ret = true -> in_layer t_self ls = None ->
  compile_method ce ps ls ss ret period = Ok m ->
  (forall v, exists s, o_str ob v = Ok s) ->
  (forall m', shown m m' -> names_fields ob m') ->
  forall ind, (exists t, dump_method ob m ind = (t, None)) <-> (forall m', shown m m' -> me_triv m' = None).
Proof.
  intros ce ps ls ss ret period m ob H1 H2 H3 H4 Hstr Hf ind.
  pose proof (C69_compiled_partial ce ps ls ss ret period m H1 H2 H3 H4) as HD.
  split.
  - intros (t & Ht) m' Hs. apply (C69_listing ob m HD) in Ht.
    assert (E : exists ind' t', listed ob m' ind' t').
    { induction Hs as [|m' code a i m'' Hs IH Hd Hi Hn]; [eauto|]. destruct IH as (ind' & t' & Hl).
      inversion Hl as [m0 ind0 code0 ts tl tx tb Ht0 Hd0 He0 _ _ _]; subst.
      pose proof (decodes_fun _ _ _ Hd _ Hd0) as <-.
      clear - He0 Hi Hn. revert ts He0 Hi. induction code as [|y code IHc]; intros ts0 He0 Hi; [destruct Hi|].
      remember (y :: code) as cc eqn:Ec. destruct He0 as [|m' ind' x code0 t ts Ex Ets]; [discriminate|].
      injection Ec as <- <-. destruct Hi as [->|Hi]; [|eauto].
      inversion Ex; subst; [congruence|]. match goal with H : nth_error _ i = _ |- _ => rewrite Hn in H; injection H as <- end. eauto. }
    destruct E as (ind' & t' & Hl). inversion Hl; auto.
  - intros Ht. destruct (listing_exists ob m Hstr) with (ind := ind) as (t & Hl).
    + intros m' Hs. destruct (shown_inside _ _ Hs) as (outer & Hi). split; auto. split; auto.
      apply (coded_closed ce outer). apply (all_coded ce true ps ls ss ret period m H1 H2 H3 H4 outer m' Hi).
    + exists t. apply (C69_listing ob m HD). exact Hl.
Qed.
Print Assumptions C69_succeeds_partial.

(** Methods with the same listing have the same code: nothing is left out. *)
Theorem C69_faithful_partial : forall ob m1 m2 ind t,
  (forall m', shown m1 m' -> plain_method ob m') -> (forall m', shown m2 m' -> plain_method ob m') ->
  listed ob m1 ind t -> listed ob m2 ind t -> same_code m1 m2.
Proof.
  intros ob m1 m2 ind t P1 P2 L1 L2. destruct (back ob) as (B & _ & _).
  destruct (B m1 ind t L1 P1 m2 t [] [] L2 P2 eq_refl) as [H _]. exact H.
Qed.
Print Assumptions C69_faithful_partial.

(** The listing of a class has a heading for every method of its table, in the order of the
    table. *)
Theorem C69_class : forall ob class table,
  (forall s m, In (s, Some m) table -> forall m', shown m m' -> exists code, decodes 0 (me_bytes m') code) ->
  forall t, class_listed ob class table t <-> dump ob class table = (t, None).
Proof. intros ob class table H. apply class_listing. intros s m m' Hi. exact (H s m Hi m'). Qed.
Print Assumptions C69_class.

(** The AST interpreter lists the headings only. *)
Theorem C69_ast : forall class table,
  dump_ast class table =
  (concat (map (fun p : text * bool => chars "#" ++ class ++ chars ">>#" ++ fst p ++ chars " = " ++
     if snd p then line (chars "<primitive>") else line (chars "(") ++ line (chars "		TODO") ++ line (chars "	)")) table), None).
Proof.
  intros class table. induction table as [|[s []] table IH]; [reflexivity| |].
  - cbn [dump_ast map concat fst snd]. rewrite IH. unfold error_print, error_println, then_. cbn [fst snd].
    f_equal. unfold line, sym_str. rewrite <- ?app_assoc. reflexivity.
  - cbn [dump_ast map concat fst snd]. rewrite IH. unfold dump_method_ast, error_print, error_println, then_. cbn [fst snd].
    f_equal. unfold line, sym_str. rewrite <- ?app_assoc. reflexivity.
Qed.
Print Assumptions C69_ast.

(** * The listing that cannot be made, and the one that hides something *)
Definition ex_ob : objects := Objects (fun v => Ok (str "v")) (fun v => Some (str "Integer")) (fun _ => str "m")
  (Some (str "Method")) (Some ex_fields).
(** The method  foo = ( ^ f )  is a field getter, one of the trivial methods. *)
Definition ex_getter : meth :=
  match compile_method ex_env [] [] [] (Some (v_ "f")) false with Ok m => m | Err _ => Meth 0 [] [] [] 0 [] 0%Z None end.
(** Option -d ends with an exception at the first trivial method. *)
Theorem C69_trivial_refuted : ~ (forall ce ps ls ss ret period m ob ind,
  forallb ok_src ss = true -> ok_ret ret = true -> in_layer t_self ls = None ->
  compile_method ce ps ls ss ret period = Ok m ->
  (forall v, exists s, o_str ob v = Ok s) -> (forall m', shown m m' -> names_fields ob m') ->
  exists t, dump_method ob m ind = (t, None)).
Proof.
  intros H. destruct (H ex_env [] [] [] (Some (v_ "f")) false ex_getter ex_ob []) as (t & Ht); try (vm_compute; reflexivity).
  - intros v. exists (str "v"). reflexivity.
  - intros m' Hs. assert (Em : m' = ex_getter).
    { induction Hs as [|m' code a i m'' Hs IH Hd Hi Hn]; [reflexivity|]. subst m'.
      assert (L : me_lits ex_getter = [LS (str "f")]) by (vm_compute; reflexivity). rewrite L in Hn. destruct i as [|[|i]]; discriminate. }
    rewrite Em. clear Hs Em. intros fs code a b i c _ Hd Hx Hb.
    assert (E : decodes 0 (me_bytes ex_getter) [(0, B_return_field_0, [])]).
    { assert (B : me_bytes ex_getter = [num B_return_field_0]) by (vm_compute; reflexivity). rewrite B. apply decodes_one; [discriminate|reflexivity]. }
    pose proof (decodes_fun _ _ _ Hd _ E). subst code. destruct Hx as [Hx|[]]; discriminate.
  - vm_compute in Ht. discriminate.
Qed.
Print Assumptions C69_trivial_refuted.

(** The methods  foo = ( self bar: [ 3 foo ] )  and  foo = ( self bar: [ 3 foo bar ] )  have the
    same listing: a block without context is not listed. *)
Definition ex_hidden1 : list src := [SSend false (v_ "self") (str "bar:")
    [SBlk 1 [] [] [SSend false (SLit (SL (LV (VInt 3)))) (str "foo") []] None false]].
Definition ex_hidden2 : list src := [SSend false (v_ "self") (str "bar:")
    [SBlk 1 [] [] [SSend false (SSend false (SLit (SL (LV (VInt 3)))) (str "foo") []) (str "bar") []] None false]].
Definition method_of (ss : list src) : meth :=
  match compile_method ex_env [] [] ss None true with Ok m => m | Err _ => Meth 0 [] [] [] 0 [] 0%Z None end.
Definition block_of (m : meth) : meth := match me_lits m with LM b :: _ => b | _ => m end.
Theorem C69_hidden_refuted : ~ (forall ce ss1 ss2 m1 m2 ob ind t,
  forallb ok_src ss1 = true -> forallb ok_src ss2 = true ->
  compile_method ce [] [] ss1 None true = Ok m1 -> compile_method ce [] [] ss2 None true = Ok m2 ->
  dump_method ob m1 ind = (t, None) -> dump_method ob m2 ind = (t, None) ->
  forall i b1 b2, nth_error (me_lits m1) i = Some (LM b1) -> nth_error (me_lits m2) i = Some (LM b2) ->
  me_bytes b1 = me_bytes b2).
Proof.
  intros H.
  assert (O1 : forallb ok_src ex_hidden1 = true) by (vm_compute; reflexivity).
  assert (O2 : forallb ok_src ex_hidden2 = true) by (vm_compute; reflexivity).
  assert (C1 : compile_method ex_env [] [] ex_hidden1 None true = Ok (method_of ex_hidden1)) by (vm_compute; reflexivity).
  assert (C2 : compile_method ex_env [] [] ex_hidden2 None true = Ok (method_of ex_hidden2)) by (vm_compute; reflexivity).
  assert (D1 : dump_method ex_ob (method_of ex_hidden1) [] = (fst (dump_method ex_ob (method_of ex_hidden1) []), None)) by (vm_compute; reflexivity).
  assert (D2 : dump_method ex_ob (method_of ex_hidden2) [] = (fst (dump_method ex_ob (method_of ex_hidden1) []), None)) by (vm_compute; reflexivity).
  assert (N1 : nth_error (me_lits (method_of ex_hidden1)) 0 = Some (LM (block_of (method_of ex_hidden1)))) by (vm_compute; reflexivity).
  assert (N2 : nth_error (me_lits (method_of ex_hidden2)) 0 = Some (LM (block_of (method_of ex_hidden2)))) by (vm_compute; reflexivity).
  assert (L1 : length (me_bytes (block_of (method_of ex_hidden1))) = 4) by (vm_compute; reflexivity).
  assert (L2 : length (me_bytes (block_of (method_of ex_hidden2))) = 6) by (vm_compute; reflexivity).
  pose proof (H ex_env _ _ _ _ ex_ob [] _ O1 O2 C1 C2 D1 D2 0 _ _ N1 N2) as E.
  rewrite E, L2 in L1. discriminate.
Qed.
Print Assumptions C69_hidden_refuted.

(** * The method foo: of BcProps, with its block and its jumps, has a listing. *)
Definition ex_listing : text := fst (dump_method ex_ob (ex_meth true) tab).
Example C69_nonvacuous :
  compile_method ex_env [str "x"] ex_locals ex_body ex_ret true = Ok (ex_meth true) /\
  dump_method ex_ob (ex_meth true) tab = (ex_listing, None) /\
  (exists m', shown (ex_meth true) m' /\ m' <> ex_meth true) /\
  listed ex_ob (ex_meth true) tab ex_listing.
Proof.
  assert (E : dump_method ex_ob (ex_meth true) tab = (ex_listing, None)) by (vm_compute; reflexivity).
  assert (HC : compile_method ex_env [str "x"] ex_locals ex_body ex_ret true = Ok (ex_meth true)) by (vm_compute; reflexivity).
  assert (L : listed ex_ob (ex_meth true) tab ex_listing).
  { apply C69_listing; [|exact E]. eapply C69_compiled_partial; [| | |exact HC]; vm_compute; reflexivity. }
  split; [exact HC|]. split; [exact E|]. split; [|exact L].
  assert (D : exists code a i m', decode 100 0 (me_bytes (ex_meth true)) = Some code /\ In (a, B_push_block, [i]) code /\
    nth_error (me_lits (ex_meth true)) i = Some (LM m') /\ (length (me_bytes m') <? length (me_bytes (ex_meth true))) = true).
  { do 4 eexists. split; [vm_compute; reflexivity|]. split; [do 14 right; left; reflexivity|].
    split; vm_compute; reflexivity. }
  destruct D as (code & a & i & m' & D & Hi & Hn & Hl). exists m'. split.
  - eapply shown_block; [constructor|eapply decode_ok; exact D|exact Hi|exact Hn].
  - intros ->. rewrite Nat.ltb_irrefl in Hl. discriminate.
Qed.
(** The methods  foo: x = ( f := x. x bar: f )  and  foo: x = ( g := x. x bar: g )  are plain, and
    have listings, which differ. *)
Definition ex_plain (f : string) : list src := [SAsgn [str f] (v_ "x"); SSend false (v_ "x") (str "bar:") [v_ f]].
Definition plain_of (f : string) : meth :=
  match compile_method ex_env [str "x"] [] (ex_plain f) None true with Ok m => m | Err _ => Meth 0 [] [] [] 0 [] 0%Z None end.
Definition check_line (t : text) : bool := forallb (fun c => negb (Ascii.eqb c newline)) t.
Lemma check_line_ok t : check_line t = true -> one_line t.
Proof.
  unfold check_line, one_line. rewrite forallb_forall. intros H Hi. specialize (H _ Hi).
  rewrite Ascii.eqb_refl in H. discriminate.
Qed.
Lemma only_itself m m' : forallb (fun l => match l with LM _ => false | _ => true end) (me_lits m) = true -> shown m m' -> m' = m.
Proof.
  intros H Hs. induction Hs as [|m' code a i m'' Hs IH Hd Hi Hn]; [reflexivity|]. subst m'.
  apply nth_error_In in Hn. rewrite forallb_forall in H. specialize (H _ Hn). discriminate.
Qed.
Lemma check_plain m code : decode 100 0 (me_bytes m) = Some code ->
  forallb (fun n => n <? 256) (me_bytes m) = true ->
  forallb (fun x : ins => existsb (fun b => num (snd (fst x)) =? num b)
    [B_push_argument; B_pop_field_0; B_pop_field_1; B_push_field_0; B_push_field_1; B_send_2; B_pop; B_return_self; B_dup]) code = true ->
  forallb (fun l => match lit_str ex_ob l with Ok s => check_line s && check_line (lit_class ex_ob l) | Err _ => false end) (me_lits m) = true ->
  plain_method ex_ob m.
Proof.
  intros D B T L. apply decode_ok in D. split; [|split; [|split]].
  - apply Forall_forall. intros n Hn. rewrite forallb_forall in B. apply Nat.ltb_lt. auto.
  - intros code' D'. rewrite (decodes_fun _ _ _ D' _ D). apply Forall_forall. intros x Hx. rewrite forallb_forall in T. specialize (T _ Hx).
    apply existsb_exists in T. destruct T as (b & Hb & E). apply Nat.eqb_eq in E.
    assert (E' : snd (fst x) = b) by (apply (f_equal of_num) in E; rewrite !of_num_num in E; congruence).
    rewrite E'. clear - Hb. unfold told. intros Hn.
    cbn [In] in Hb. repeat (destruct Hb as [<-|Hb]; [cbn [In] in Hn; repeat (destruct Hn as [Hn|Hn]; [discriminate|]); destruct Hn|]). destruct Hb.
  - intros i l s Hn Hs. apply nth_error_In in Hn. rewrite forallb_forall in L. specialize (L _ Hn). rewrite Hs in L.
    apply andb_true_iff in L. destruct L. split; apply check_line_ok; auto.
  - intros fs i f E Hn. injection E as <-. apply nth_error_In in Hn. apply check_line_ok.
    destruct Hn as [<-|[<-|[]]]; vm_compute; reflexivity.
Qed.
Example C69_nonvacuous_plain : forall f, In f ["f"; "g"]%string ->
  compile_method ex_env [str "x"] [] (ex_plain f) None true = Ok (plain_of f) /\
  (forall m', shown (plain_of f) m' -> plain_method ex_ob m' /\ names_fields ex_ob m' /\ me_triv m' = None) /\
  (exists t, listed ex_ob (plain_of f) [] t) /\
  dump_method ex_ob (plain_of "f") [] <> dump_method ex_ob (plain_of "g") [].
Proof.
  assert (NE : dump_method ex_ob (plain_of "f") [] <> dump_method ex_ob (plain_of "g") []).
  { intros E. apply (f_equal (fun w => forallb (fun p => Ascii.eqb (fst p) (snd p)) (combine (fst w) (fst (dump_method ex_ob (plain_of "f") []))))) in E.
    vm_compute in E. discriminate. }
  assert (K : forall f, In f ["f"; "g"]%string -> compile_method ex_env [str "x"] [] (ex_plain f) None true = Ok (plain_of f) /\
    plain_method ex_ob (plain_of f) /\ (exists code, decode 100 0 (me_bytes (plain_of f)) = Some code /\
      forallb (fun x : ins => negb (existsb (fun b => num (snd (fst x)) =? num b) [B_push_field; B_pop_field; B_inc_field; B_inc_field_push])) code = true) /\
    forallb (fun l => match l with LM _ => false | _ => true end) (me_lits (plain_of f)) = true /\
    me_triv (plain_of f) = None /\ forallb ok_src (ex_plain f) = true).
  { intros f Hf. cbn [In] in Hf. destruct Hf as [<-|[<-|[]]];
      (split; [vm_compute; reflexivity|]; split; [eapply check_plain; vm_compute; reflexivity|];
       split; [eexists; split; vm_compute; reflexivity|]; split; [vm_compute; reflexivity|]; split; vm_compute; reflexivity). }
  intros f Hf. destruct (K f Hf) as (HC & HP & (code & D & HB) & HL & HT & HO).
  assert (A : forall m', shown (plain_of f) m' -> plain_method ex_ob m' /\ names_fields ex_ob m' /\ me_triv m' = None).
  { intros m' Hs. rewrite (only_itself _ _ HL Hs). split; [exact HP|]. split; [|exact HT].
    intros fs code' a b i c _ Hd Hx Hb. rewrite (decodes_fun _ _ _ Hd _ (decode_ok _ _ _ _ D)) in Hx.
    rewrite forallb_forall in HB. specialize (HB _ Hx). apply negb_true_iff in HB. exfalso.
    assert (E : existsb (fun b0 => num (snd (fst (a, b, [i; c]))) =? num b0) [B_push_field; B_pop_field; B_inc_field; B_inc_field_push] = true).
    { apply existsb_exists. exists b. split; [exact Hb|apply Nat.eqb_refl]. }
    rewrite E in HB. discriminate. }
  split; [exact HC|]. split; [exact A|]. split; [|exact NE].
  destruct (proj2 (C69_succeeds_partial ex_env [str "x"] [] (ex_plain f) None true _ ex_ob HO eq_refl eq_refl HC
    (fun v => ex_intro _ (str "v") eq_refl) (fun m' Hs => proj1 (proj2 (A m' Hs))) [])) as (t & Ht).
  - intros m' Hs. apply (A m' Hs).
  - exists t. apply C69_listing; [|exact Ht]. exact (C69_compiled_partial ex_env [str "x"] [] (ex_plain f) None true _ HO eq_refl eq_refl HC).
Qed.
