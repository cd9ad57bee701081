(** C74: a number program gives the same answers in the translated VM and under Python. *)
From Coq Require Import ZArith Bool String List Ascii Lia Floats.SpecFloat.
From Verif Require Import Base NumSpec NumModel NtxSpec NtxModel NtxProps NtxProofs DblSpec NumProofs ModeSpec ModeProofs.
Import ListNotations.
Open Scope Z_scope.

(** A message with one argument, sent to the same receiver with the same argument, is answered the
    same in both, or by neither.  Missing: the messages [agree1] leaves out; on each of them the
    two do differ (C74_messages_refuted). *)
Theorem C74_messages_partial : forall sel a a' b b', same_value a a' -> same_value b b' ->
  agree1 sel a b -> same_outcome (send1 Translated a sel b) (send1 Hosted a' sel b').
Proof. intros. apply send1_agree; auto. Qed.
Print Assumptions C74_messages_partial.
Theorem C74_unary_messages_partial : forall sel a a', same_value a a' ->
  agree0 sel a -> same_outcome (send0 Translated a sel) (send0 Hosted a' sel).
Proof. intros. apply send0_agree; auto. Qed.
Print Assumptions C74_unary_messages_partial.

(** So a program all of whose sends are such sends the same messages in the same order, leaves the
    same values in its variables and answers the same; it runs on in one if it runs on in the
    other.  The sends looked at are those of the run in the translated VM. *)
Theorem C74_programs_partial : forall p e e' fuel, well_written p -> same_env e e' ->
  Forall agreeing (fst (run Translated fuel e p)) ->
  same_run (run Translated fuel e p) (run Hosted fuel e' p).
Proof. intros p e e' fuel W E F. apply run_agree; auto. Qed.
Print Assumptions C74_programs_partial.

(** A program that sends only +, -, *, comparisons by size, ==, max:, min: and asDouble agrees
    with no further condition: neither the size of its integers nor the types of its values
    matter, and it ends in both or in neither. *)
Theorem C74_always_agree : forall p e e' fuel, well_written p -> same_env e e' ->
  sends_only always p -> same_run (run Translated fuel e p) (run Hosted fuel e' p).
Proof.
  intros p e e' fuel W E S. apply run_agree; auto.
  eapply Forall_impl; [|apply (only_sent Translated always fuel p e S)].
  intros [[a sel] [b|]] H; cbn [snd fst] in H; [apply always_agree1|apply always_agree0]; exact H.
Qed.
Print Assumptions C74_always_agree.
Theorem C74_always_end_together : forall p e e', well_written p -> same_env e e' ->
  sends_only always p ->
  ((exists fuel, snd (run Translated fuel e p) <> None) <-> (exists fuel, snd (run Hosted fuel e' p) <> None)).
Proof.
  intros p e e' W E S.
  split; intros [fuel H]; exists fuel; destruct (C74_always_agree p e e' fuel W E S) as [_ R]; intros X; rewrite X in R;
    destruct (snd (run _ fuel _ p)) as [[]|]; auto.
Qed.
Print Assumptions C74_always_end_together.

(** Integers are written the same and read the same. *)
Theorem C74_written_alike : forall a a' z, same_value a a' -> int_val a = Some z ->
  as_string a = as_string a'.
Proof.
  intros a a' z (_ & _ & E) H. rewrite H in E.
  destruct a; try discriminate H; injection H as ->; destruct a'; try discriminate E; injection E as ->; reflexivity.
Qed.
Print Assumptions C74_written_alike.
Lemma digits_alike neg s : forall acc, - 2 ^ 63 <= acc < 2 ^ 63 ->
  match read_digits Translated neg acc s with
  | Number z => read_digits Hosted neg acc s = Number z /\ - 2 ^ 63 <= z < 2 ^ 63
  | Overflow => True
  | NoNumber => read_digits Hosted neg acc s = NoNumber
  end.
Proof.
  induction s as [|c s IH]; intros acc H; cbn [read_digits]; [auto|].
  destruct (char_digit c) as [d|]; [|reflexivity]. cbn [ovfcheck].
  destruct (fits_word (acc * 10)) eqn:F1; [|exact I]. destruct (fits_word (acc * 10 + _)) eqn:F2; [|exact I].
  apply IH. apply fits_word_spec. exact F2.
Qed.
Lemma hosted_digits neg s : forall acc, read_digits Hosted neg acc s <> Overflow.
Proof. induction s as [|c s IH]; intros acc; cbn [read_digits]; [discriminate|]. destruct (char_digit c); [apply IH|discriminate]. Qed.
Theorem C74_read_alike : forall v, int_val v = None ->
  same_outcome (from_string Translated v) (from_string Hosted v).
Proof.
  assert (K : forall s, same_outcome
    (match string_to_int Translated s with Number z => Ok (VInt z) | Overflow => b <- bigint_from_str s ;; Ok (VBig b) | NoNumber => Err ValueError end)
    (match string_to_int Hosted s with Number z => Ok (VInt z) | Overflow => b <- bigint_from_str s ;; Ok (VBig b) | NoNumber => Err ValueError end)).
  { intros s. unfold string_to_int, bigint_from_str.
    assert (D : (exists neg t, forall m, read_signed m s = read_digits m neg 0 t) \/ (forall m, read_signed m s = NoNumber)).
    { destruct s as [|c [|d s]]; [right; reflexivity|left..].
      - exists false, [c]. intros m. destruct c as [[] [] [] [] [] [] [] []]; reflexivity.
      - destruct (ascii_dec c "-"%char) as [->|N1]; [exists true, (d :: s); reflexivity|].
        destruct (ascii_dec c "+"%char) as [->|N2]; [exists false, (d :: s); reflexivity|].
        exists false, (c :: d :: s). intros m. destruct c as [[] [] [] [] [] [] [] []]; try reflexivity; contradiction. }
    destruct D as [(neg & t & D)|D]; rewrite !D; [|eapply both_fail; reflexivity].
    pose proof (digits_alike neg t 0 ltac:(lia)) as A. pose proof (hosted_digits neg t 0) as B.
    destruct (read_digits Translated neg 0 t).
    - destruct A as [-> R]. apply both_ok, same_int. exact R.
    - destruct (read_digits Hosted neg 0 t); cbn [bind]; [apply both_ok, same_big|contradiction|eapply both_fail; reflexivity].
    - rewrite A. eapply both_fail; reflexivity. }
  intros v N. destruct v; try discriminate N; cbn [from_string]; try apply K; apply both_ok, same_other; reflexivity.
Qed.
Print Assumptions C74_read_alike.

(** Without the conditions it is false; one case for each. *)
Definition d_two : spec_float := S754_finite false (2 ^ 52) (-51).
Definition d_big : spec_float := S754_finite false (2 ^ 52) 1.      (* 2^53 *)
Definition d_small : spec_float := S754_finite false (2 ^ 52) (-122).  (* 2^-70 *)
Definition d_huge : spec_float := S754_finite false (2 ^ 52) 11.    (* 2^63 *)
Theorem C74_messages_refuted : forall a sel b, In (a, sel, b)
  [ (VInt (2 ^ 53 + 1), "=", VDbl d_big); (VBig (2 ^ 1024), "=", VDbl d_two);
    (VInt (2 ^ 53 + 1), "<>", VDbl d_big); (VInt (2 ^ 53 + 1), "~=", VDbl d_big);
    (VInt (- 2 ^ 63), "/", VInt (-1)); (VInt (- 2 ^ 63), "%", VInt (-1)); (VInt (- 2 ^ 63), "rem:", VInt (-1));
    (VInt 1, "/", VDbl d_small);
    (VBig (2 ^ 64 + 1), "rem:", VBig (2 ^ 64)); (VBig (2 ^ 64), "rem:", VDbl d_two);
    (VBig (2 ^ 64), "&", VDbl d_two);
    (VInt 1, "//", VInt 0); (VBig (2 ^ 64 + 512), "//", VInt 3);
    (VInt 1, "<<", VBig 3); (VBig 3, "<<", VInt 1); (VInt 0, "<<", VInt (-1));
    (VBig 3, "bitXor:", VInt 1); (VInt 1, "bitXor:", VBig 3);
    (VBig 8, ">>>", VInt 1); (VInt (-1), ">>>", VInt 1); (VInt 1, ">>>", VInt 64) ]%string ->
  same_value a (hosted a) /\ same_value b (hosted b) /\
  ~ same_outcome (send1 Translated a sel b) (send1 Hosted (hosted a) sel (hosted b)).
Proof.
  intros a sel b H.
  assert (V : forall v, valid Translated v -> same_value v (hosted v)).
  { intros v W. destruct v; try (apply same_other; reflexivity); [apply same_int; exact W|apply same_big]. }
  repeat (destruct H as [H|H]; [injection H as <- <- <-; (split; [apply V; cbn [valid]; lia|]); (split; [apply V; cbn [valid]; try exact I; lia|]);
    intros [(v & w & A & B & S)|[F G]];
    [ vm_compute in A, B; try discriminate A; try discriminate B; injection A as <-; injection B as <-;
      destruct S as (_ & _ & S); vm_compute in S; discriminate S
    | first [eapply F; vm_compute; reflexivity|eapply G; vm_compute; reflexivity] ]|]).
  destruct H.
Qed.
Print Assumptions C74_messages_refuted.
Theorem C74_unary_messages_refuted : forall a sel, In (a, sel)
  [ (VInt (- 2 ^ 63), "abs"); (VBig (2 ^ 64 + 2 ^ 32), "as32BitSignedValue"); (VBig 4, "as32BitUnsignedValue");
    (VBig 4, "sqrt"); (VDbl d_huge, "asInteger"); (VDbl d_huge, "round") ]%string ->
  same_value a (hosted a) /\ ~ same_outcome (send0 Translated a sel) (send0 Hosted (hosted a) sel).
Proof.
  intros a sel H.
  assert (V : forall v, valid Translated v -> same_value v (hosted v)).
  { intros v W. destruct v; try (apply same_other; reflexivity); [apply same_int; exact W|apply same_big]. }
  repeat (destruct H as [H|H]; [injection H as <- <-; (split; [apply V; cbn [valid]; try exact I; lia|]);
    intros [(v & w & A & B & S)|[F G]];
    [ vm_compute in A, B; try discriminate A; try discriminate B; injection A as <-; injection B as <-;
      destruct S as (_ & _ & S); vm_compute in S; discriminate S
    | first [eapply F; vm_compute; reflexivity|eapply G; vm_compute; reflexivity] ]|]).
  destruct H.
Qed.
Print Assumptions C74_unary_messages_refuted.
(** A whole program: the sum of two large numbers less the second is a small number in a large
    number's clothes, and shifting it fails when translated. *)
Theorem C74_programs_refuted : exists p e, well_written p /\ same_env e e /\
  ~ same_run (run Translated 9 e p) (run Hosted 9 e p) /\
  p = Binary (Binary (Binary (Lit false (NtxModel.py_str (2 ^ 63))) "+" (Lit false (NtxModel.py_str 3))) "-"
         (Lit false (NtxModel.py_str (2 ^ 63)))) "<<" (Lit false (NtxModel.py_str 1)).
Proof.
  eexists. exists (fun _ => VNil). split; [|split; [|split; [|reflexivity]]].
  - cbn [well_written].
    assert (K : forall z, 0 <= z -> exists n, numeral (NtxModel.py_str z) n).
    { intros z H. destruct (py_str_written z) as (t & N & _ & E). destruct (Z.ltb_spec z 0); [lia|]. rewrite E. eauto. }
    split; [split; [split|]|]; apply K; lia.
  - intros n. apply same_other. reflexivity.
  - match goal with |- ~ same_run (run _ _ ?e ?p) _ =>
      assert (T : snd (run Translated 9 e p) = Some (e, Err AttributeError)) by (vm_compute; reflexivity);
      assert (H : snd (run Hosted 9 e p) = Some (e, Ok (VInt 6))) by (vm_compute; reflexivity)
    end.
    intros [_ S]. rewrite T, H in S. destruct S as [_ [(v & w & A & _)|[_ F]]]; [discriminate A|exact (F _ eq_refl)].
Qed.
Print Assumptions C74_programs_refuted.

(** A loop with numbers that outgrow the machine word: 2 ** 70 by doubling, then a comparison. *)
Definition doubling : prog :=
  Seq (Set_ 0 (Lit false ["1"%char])) (Seq (Set_ 1 (Lit false ["0"%char]))
  (Seq (While (Binary (Var 1) "<" (Lit false ["7"%char; "0"%char]))
          (Seq (Set_ 0 (Binary (Var 0) "+" (Var 0))) (Set_ 1 (Binary (Var 1) "+" (Lit false ["1"%char])))))
       (Binary (Var 0) "max:" (Unary (Var 1) "asDouble")))).
Definition answer (r : run_result) : option (res value) := option_map snd (snd r).
Example C74_nonvacuous :
  well_written doubling /\ sends_only always doubling /\
  length (fst (run Translated 100 (fun _ => VNil) doubling)) = 213%nat /\
  answer (run Translated 100 (fun _ => VNil) doubling) = Some (Ok (VBig (2 ^ 70))) /\
  answer (run Hosted 100 (fun _ => VNil) doubling) = Some (Ok (VInt (2 ^ 70))).
Proof.
  split.
  { cbn [well_written doubling].
    assert (D1 : numeral ["1"%char] 1) by (apply one_digit; cbn; auto).
    assert (D0 : numeral ["0"%char] 0) by (apply one_digit; cbn; auto).
    assert (D7 : numeral (["7"%char] ++ ["0"%char]) (10 * 7 + 0)) by (apply more_digits; [apply one_digit|]; cbn; tauto).
    split; [exists 1; exact D1|]. split; [exists 0; exact D0|]. split; [|split; exact I].
    split; [split; [exact I|exists 70; exact D7]|]. split; [split; exact I|]. split; [exact I|exists 1; exact D1]. }
  split.
  { cbn [sends_only doubling]. assert (In "<" always /\ In "+" always /\ In "max:" always /\ In "asDouble" always)%string by (cbn; tauto). tauto. }
  split; [vm_compute; reflexivity|]. split; vm_compute; reflexivity.
Qed.
(** Sends that need the conditions, and meet them. *)
Example C74_nonvacuous_conditions :
  agree1 "/" (VBig (2 ^ 70)) (VInt (-1)) /\ agree1 "=" (VInt 3) (VDbl d_two) /\
  agree1 ">>>" (VInt 12) (VInt 2) /\ agree0 "sqrt" (VInt (2 ^ 60 + 1)) /\ agree0 "round" (VDbl d_two).
Proof.
  assert (NB : forall z, ~ big (VInt z)) by (intros z [y H]; discriminate H).
  assert (ND : forall z, ~ double (VInt z)) by (intros z [y H]; discriminate H).
  assert (DB : forall f, ~ big (VDbl f)) by (intros z [y H]; discriminate H).
  unfold agree1, agree0, smallest_by_minus_one.
  split; [|split; [|split; [|split]]].
  - split; [intros [H|[H|[H|[]]]]; discriminate H|]. split; [intros _ [H _]; discriminate H|]. split; [auto|].
    split; [discriminate|]. split; [discriminate|]. split; [discriminate|]. split; [intros [H|[H|[H|[]]]]; discriminate H|]. split; discriminate.
  - split; [intros _ _ f H; injection H as <-; split; [cbn; lia|exists 3; split; [reflexivity|lia]]|].
    split; [intros [H|[H|[H|[]]]]; discriminate H|]. split; [discriminate|].
    split; [discriminate|]. split; [discriminate|]. split; [discriminate|]. split; [intros [H|[H|[H|[]]]]; discriminate H|]. split; discriminate.
  - split; [intros [H|[H|[H|[]]]]; discriminate H|]. split; [intros [H|[H|[H|[]]]]; discriminate H|]. split; [discriminate|].
    split; [discriminate|]. split; [discriminate|]. split; [discriminate|]. split; [auto|]. split; [discriminate|].
    intros _ x n Hx Hn. injection Hx as <-. injection Hn as <-. lia.
  - split; [discriminate|]. split; [auto|]. split; discriminate.
  - split; [discriminate|]. split; [intros [H|[H|[H|[]]]]; discriminate H|]. split; [discriminate|].
    intros _ f u Hf Hu. injection Hf as <-. split; [cbn; lia|].
    assert (U : units d_two = Some (2 ^ 1075)) by (vm_compute; reflexivity). rewrite U in Hu. injection Hu as <-.
    unfold unit_scale. vm_compute. reflexivity.
Qed.
