(** Running the bytecodes of a trivial method, and invoking it. *)
From Coq Require Import ZArith Bool String Ascii List Lia.
From Verif Require Import Base LexModel ParseModel BcModel BcInterp BcSpec BcTab BcCode BcSim BcEval BcMono BcAdapt BcScope BcEmit BcInl BcRep BcGen BcExpr BcMsg BcBlk BcMeth BcRun BcNest BcTriv VmModel VmTriv.
Import ListNotations.
Open Scope nat_scope.
Open Scope list_scope.

(** What the code of a trivial method does on a machine. *)
Definition triv_means {S X} (μ : machine S X) (t : triv) (s : S) : BcInterp.out S X value :=
  match t with
  | TLit l => match lit_value l with Some v => Retn v s | None => Stuck end
  | TGlob n _ => bind (m_glob μ n s) (fun v s => Retn v s)
  | TFld i k => bind (m_getf μ k i s) (fun v s => Retn v s)
  | TFldW f a => bind (m_rd μ 0 (VArg a) s) (fun v s => bind (m_setf μ 0 f v s) (fun _ s =>
                 bind (m_rd μ 0 (VArg 0) s) (fun v s => Retn v s)))
  end.
Lemma triv_exec {S X} (μ : machine S X) t body n s : triv_code t body ->
  exec μ body n [] s = bind (triv_means μ t s) (fun v s => Done [v] s).
Proof.
  destruct t as [l|g k|i k|f a]; cbn [triv_code triv_means].
  - intros (v & -> & ->). cbn. reflexivity.
  - intros ->. cbn. destruct (m_glob μ g s); reflexivity.
  - intros [-> | (-> & ->)]; cbn; destruct (m_getf μ _ i s); reflexivity.
  - intros ->. cbn. destruct (m_rd μ 0 (VArg a) s); try reflexivity. cbn. destruct (m_setf μ 0 f a0 s0); try reflexivity.
    cbn. destruct (m_rd μ 0 (VArg 0) s1); reflexivity.
Qed.
Lemma triv_answering {S X} (μ : machine S X) t : answering (fun _ => triv_means μ t).
Proof.
  intros n s v s' H. destruct t as [l|g k|i k|f a]; cbn [triv_means] in H.
  - destruct (lit_value l); discriminate.
  - destruct (m_glob μ g s); discriminate.
  - destruct (m_getf μ k i s); discriminate.
  - destruct (m_rd μ 0 (VArg a) s); try discriminate. cbn in H. destruct (m_setf μ 0 f a0 s0); try discriminate.
    cbn in H. destruct (m_rd μ 0 (VArg 0) s1); discriminate.
Qed.
Lemma triv_typ t body : triv_code t body -> exists h p, typ body 0 = Some (h, p) /\ p <= 1.
Proof.
  destruct t as [l|g k|i k|f a]; cbn [triv_code].
  - intros (v & _ & ->). exists 1, 1. split; [reflexivity|lia].
  - intros ->. exists 1, 1. split; [reflexivity|lia].
  - intros [-> | (-> & ->)]; [exists 1, 1|exists 0, 0]; (split; [reflexivity|lia]).
  - intros ->. exists 0, 1. split; [reflexivity|lia].
Qed.

Section Act.
Variable P : prog.
Variable call : callee -> list value -> vm -> vout value.
Notation μ := (vm_machine P call (vm_nlr P call)).

Lemma top_frame mid args outer s :
  nth_error (v_frames (push_frame mid args outer s)) (length (v_frames s)) = Some (Frame mid args [] outer true).
Proof. cbn. rewrite nth_error_app2, Nat.sub_diag by lia. reflexivity. Qed.
Lemma linked_up s k fid : linked s k fid -> forall w, home_receiver s k fid = Some w ->
  exists r, receiver (v_frames s) fid = Some r /\ outer_self s k r = Some w.
Proof.
  revert fid. induction k as [|k IH]; intros fid Hl w Hw.
  - unfold home_receiver in Hw. cbn [up] in Hw. exists w. auto.
  - destruct Hl as (f & b & m & l & o & E1 & E2 & E3 & E4 & E5 & Hl).
    unfold home_receiver in Hw. cbn [up] in Hw. rewrite E1, E2 in Hw.
    destruct (IH o Hl w Hw) as (r & R1 & R2). exists b. unfold receiver at 1. rewrite E1. split; auto.
    cbn [outer_self]. rewrite E4, R1. exact R2.
Qed.
Lemma linked_self s k fid : linked s k fid -> fid < length (v_frames s) -> forall w, home_receiver s k fid = Some w ->
  the_block (v_store s) w = None -> forall n, fid < n -> exists r, receiver (v_frames s) fid = Some r /\
  self_of (v_store s) (v_frames s) n r = Some w.
Proof.
  revert fid. induction k as [|k IH]; intros fid Hl Hf w Hw Hb n Hn.
  - unfold home_receiver in Hw. cbn [up] in Hw. exists w. split; auto. destruct n; cbn [self_of]; rewrite Hb; reflexivity.
  - destruct Hl as (f & b & m & l & o & E1 & E2 & E3 & E4 & E5 & Hl).
    unfold home_receiver in Hw. cbn [up] in Hw. rewrite E1, E2 in Hw. destruct n as [|n]; [lia|].
    destruct (IH o Hl ltac:(lia) w Hw Hb n ltac:(lia)) as (r & R1 & R2). exists b. unfold receiver at 1. rewrite E1. split; auto.
    cbn [self_of]. rewrite E4, R1. exact R2.
Qed.
Lemma home_frame s k fid w : home_receiver s k fid = Some w ->
  exists h f, up (v_frames s) k fid = Some h /\ nth_error (v_frames s) h = Some f /\ nth_error (f_args f) 0 = Some w.
Proof.
  unfold home_receiver, receiver. intros H. destruct (up (v_frames s) k fid) as [h|] eqn:E1; [|discriminate].
  destruct (nth_error (v_frames s) h) as [f|] eqn:E2; [|discriminate]. eauto.
Qed.

(** Running the code in an activation is invoking the trivial method. *)
Lemma triv_activate t mid args outer below s : answers call -> args <> [] ->
  proper t args (push_frame mid args outer s) (length (v_frames s)) ->
  activate false (fun fid s => triv_means (μ mid fid) t s) mid args outer s =
  invoke_trivial P call t mid args outer below s.
Proof.
  intros Hc Ha Hp. unfold invoke_trivial, activate.
  set (s1 := push_frame mid args outer s) in *. set (fid := length (v_frames s)) in *.
  assert (Hfr : nth_error (v_frames s1) fid = Some (Frame mid args [] outer true)) by apply top_frame.
  assert (Hlt : fid < length (v_frames s1)) by (apply nth_error_Some; congruence).
  destruct args as [|r rest]; [congruence|].
  assert (Hr : receiver (v_frames s1) fid = Some r) by (unfold receiver; rewrite Hfr; reflexivity).
  destruct t as [l|g k|i k|f a]; cbn [triv_means triv_invoke proper vm_machine m_glob m_getf m_rd m_setf] in *.
  - destruct (lit_value l); reflexivity.
  - destruct Hp as [Hn Hp]. apply Nat.leb_le in Hn. rewrite Hn. clear Hn.
    unfold vm_glob, glob_1. destruct (assoc_glob g (s_globs (v_store s1))) as [v|] eqn:Eg; [reflexivity|].
    destruct Hp as [Hp | (Hl & w & Hw & Hb)]; [congruence|].
    destruct (linked_up _ _ _ Hl w Hw) as (r' & R1 & R2). rewrite Hr in R1. inversion R1; subst r'; clear R1. rewrite R2.
    destruct (linked_self _ _ _ Hl Hlt w Hw Hb (length (v_frames s1)) Hlt) as (r' & R1 & R3).
    unfold self_dynamically. rewrite R1, R3. unfold vm_send2.
    destruct (p_find P t_unknown w (v_store s1)) as [c|]; [|reflexivity].
    specialize (Hc c [w; sym_value g] s1). destruct (call c [w; sym_value g] s1) as [v s2|v s2|[h v|e] s2| |]; try reflexivity.
    destruct (Hc v s2 eq_refl).
  - destruct Hp as [Hl Hw]. destruct (home_receiver s1 k fid) as [w|] eqn:Ew; [|congruence].
    destruct (linked_up _ _ _ Hl w Ew) as (r' & R1 & R2). rewrite Hr in R1. inversion R1; subst r'; clear R1. rewrite R2.
    destruct (home_frame _ _ _ _ Ew) as (h & fr & U1 & U2 & U3).
    unfold vm_getf, vm_fields, at_level, get_field, obj_fields. rewrite U1, U2, U3.
    destruct w; try reflexivity. destruct (nth_error (s_objs (v_store s1)) _) as [[]|]; try reflexivity.
    destruct (nth_error fields i); reflexivity.
  - assert (Hset : forall x, nth_error (r :: rest) a = Some x ->
      match bind (vm_rd fid 0 (VArg a) s1) (fun v s => bind (vm_setf fid 0 f v s) (fun _ s => bind (vm_rd fid 0 (VArg 0) s) (fun v s => Retn v s))) with
      | Done v s | Retn v s => Done v s
      | Abrupt (XRet h v) s => Abrupt (XRet h v) s
      | Abrupt (XPy e) s => Abrupt (XPy e) s
      | Hang => Hang | Stuck => Stuck end = write_2 f r x s1).
    { intros x Hx. unfold vm_rd at 1, at_level. cbn [up]. rewrite Hfr. cbn [f_args]. rewrite Hx. cbn [bind].
      unfold write_2, vm_setf, set_field, vm_fields, obj_fields, at_level. cbn [up]. rewrite Hfr. cbn [f_args nth_error].
      destruct r; try reflexivity. destruct (nth_error (s_objs (v_store s1)) _) as [[]|]; try reflexivity.
      destruct (f <? length fields); [|reflexivity]. cbn [bind]. unfold vm_rd, at_level. cbn [up].
      cbn [set_store v_frames]. rewrite Hfr. reflexivity. }
    destruct Hp as [[Hp1 Hp2] Hp3]. cbn [length] in *.
    destruct rest as [|x [|y [|z rest]]]; cbn [length] in *; try lia.
    + assert (a = 1) by lia. subst a. exact (Hset x eq_refl).
    + unfold write_3. destruct a as [|[|[|a]]]; try lia.
      * exact (Hset x eq_refl).
      * exact (Hset y eq_refl).
Qed.

(** The bytes of a trivial method. *)
Lemma triv_run ce C A body Q m t mid args outer below s : answers call -> args <> [] ->
  (exists R, enc (ce_fields ce) C (me_lits m) A 0 body (me_bytes m) Q R) ->
  (1 <= me_max m)%Z -> triv_code t body ->
  forall chain, map fst C = map snd (me_locals m) :: chain ->
  proper t args (push_frame mid args outer s) (length (v_frames s)) ->
  same_outcome (fun _ s => invoke_trivial P call t mid args outer below s)
               (fun k s => activate false (fun fid => run_method (μ mid fid) chain m k) mid args outer s) s.
Proof.
  intros Hc Ha He Hm Ht chain Hch Hp.
  destruct He as (R & He').
  destruct (triv_typ _ _ Ht) as (h & p & Hty & Hpp).
  set (fid := length (v_frames s)). set (s1 := push_frame mid args outer s).
  pose proof (run_code ce (μ mid fid) (Z.to_nat (me_max m)) C (me_lits m) A body (me_bytes m) Q R h p (fun _ => triv_means (μ mid fid) t)
    He' Hty ltac:(lia) (triv_answering _ t) (fun n s => triv_exec (μ mid fid) t body n s Ht) s1) as [H1 H2].
  rewrite Hch in H1, H2. cbn beta in *.
  assert (E : activate false (fun fid s => triv_means (μ mid fid) t s) mid args outer s = invoke_trivial P call t mid args outer below s)
    by (apply triv_activate; auto).
  split; intros n Hn.
  - rewrite <- E in *. unfold activate in Hn |- *. fold fid s1 in Hn |- *.
    destruct (H1 0) as [K HK].
    + intros E0. rewrite E0 in Hn. apply Hn. reflexivity.
    + exists K. intros k Hk. specialize (HK k Hk). unfold run_method. fold fid s1. rewrite HK. reflexivity.
  - exists 0. intros k _. rewrite <- E. unfold activate in Hn |- *. unfold run_method in Hn |- *. fold fid s1 in Hn |- *.
    destruct (H2 n) as [K HK].
    + intros E0. rewrite E0 in Hn. apply Hn. reflexivity.
    + rewrite <- (HK K) by lia. reflexivity.
Qed.
End Act.

(** Activations whose bodies have the same outcome. *)
Lemma activate_same F G mid args outer s :
  same_outcome (fun n s => F n (length (v_frames s) - 1) s) (fun n s => G n (length (v_frames s) - 1) s) (push_frame mid args outer s) ->
  same_outcome (fun n s => activate false (F n) mid args outer s) (fun n s => activate false (G n) mid args outer s) s.
Proof.
  assert (E : length (v_frames (push_frame mid args outer s)) - 1 = length (v_frames s)).
  { cbn. rewrite app_length. cbn. lia. }
  intros [H1 H2]. cbn beta in *. rewrite E in *.
  split; intros n Hn; unfold activate in Hn |- *.
  - destruct (H1 n) as [K HK]; [intros E0; rewrite E0 in Hn; apply Hn; reflexivity|].
    exists K. intros k Hk. specialize (HK k Hk). cbn beta in HK. rewrite E in HK. rewrite HK. reflexivity.
  - destruct (H2 n) as [K HK]; [intros E0; rewrite E0 in Hn; apply Hn; reflexivity|].
    exists K. intros k Hk. specialize (HK k Hk). cbn beta in HK. rewrite E in HK. rewrite HK. reflexivity.
Qed.

(** Calls of a program answer or stop. *)
Lemma bind_retn {S X A B} (m : BcInterp.out S X A) (f : A -> S -> BcInterp.out S X B) v s :
  bind m f = Retn v s -> m = Retn v s \/ exists a s1, f a s1 = Retn v s.
Proof. destruct m; cbn; intros H; try discriminate; eauto. left. congruence. Qed.
Section Answers.
Variable P : prog.
Variable call : callee -> list value -> vm -> vout value.
Variable enter : nat -> nat -> nat -> list value -> vm -> vout value.
Hypothesis Hc : answers call.
Hypothesis He : forall m l o args s v s', enter m l o args s <> Retn v s'.
Lemma send_answers sel args s v s' : vm_send P call sel args s <> Retn v s'.
Proof.
  unfold vm_send. destruct args as [|r args]; [discriminate|]. destruct (p_find P sel r (v_store s)); [apply Hc|].
  destruct (p_dnu P sel (r :: args) (v_store s)) as [a st]. destruct (p_find P t_dnu r st); [apply Hc|discriminate].
Qed.
Lemma value_answers b args s v s' : vm_value enter b args s <> Retn v s'.
Proof. unfold vm_value. destruct (the_block (v_store s) b) as [[[m l] o]|]; [apply He|discriminate]. Qed.
Lemma while_answers n c b on s v s' : vm_while enter n c b on s <> Retn v s'.
Proof.
  revert s. induction n as [|n IH]; intros s; cbn [vm_while]; [discriminate|]. intros H.
  apply bind_retn in H. destruct H as [H | (a & s1 & H)]; [eapply value_answers; eauto|].
  destruct (takes _ a); [|discriminate]. apply bind_retn in H. destruct H as [H | (a1 & s2 & H)]; [eapply value_answers; eauto|].
  eapply IH; eauto.
Qed.
Lemma act_answers n a s v s' : run_act P call enter n a s <> Retn v s'.
Proof.
  revert s. induction a as [x|e|f k IH|sel args k IH|c args k IH|b args k IH|c b on k IH]; intros s; cbn [run_act]; try discriminate; auto; intros H.
  - apply bind_retn in H. destruct H as [H | (a1 & s2 & H)]; [eapply send_answers; eauto|eapply IH; eauto].
  - apply bind_retn in H. destruct H as [H | (a1 & s2 & H)]; [eapply Hc; eauto|eapply IH; eauto].
  - apply bind_retn in H. destruct H as [H | (a1 & s2 & H)]; [eapply value_answers; eauto|eapply IH; eauto].
  - destruct (the_block (v_store s) b); [|discriminate]. destruct (the_block (v_store s) c); [|discriminate].
    apply bind_retn in H. destruct H as [H | (a1 & s2 & H)]; [eapply while_answers; eauto|eapply IH; eauto].
Qed.
End Answers.
Lemma activate_answers c b mid args o s v s' : activate c b mid args o s <> Retn v s'.
Proof.
  unfold activate. destruct (b _ _) as [x s1|x s1|[h x|e] s1| |]; try discriminate. destruct (c && (h =? length (v_frames s))); discriminate.
Qed.
Lemma call_at_answers P n : forall c b args s v s', call_at P n c b args s <> Retn v s'.
Proof.
  induction n as [|n IH]; intros c b args s v s'; cbn [call_at]; [discriminate|].
  destruct c as [m|p]; [destruct b as [[l o]|]; apply activate_answers|]. apply act_answers.
  - intros c a s2 v2 s3. apply IH.
  - intros. apply IH.
Qed.
Lemma call_answers P n : answers (call P n).
Proof. intros c args s v s'. apply call_at_answers. Qed.
