(** Proofs that the integers programs compute fit their representation. *)
From Coq Require Import ZArith Bool String List Lia Floats.SpecFloat.
From Verif Require Import Base NumModel NumSpec NumProofs WfSpec WfProofs.
Import ListNotations.
Open Scope Z_scope.

Lemma fits_in z : fits_word z = true -> - 2 ^ 63 <= z < 2 ^ 63.
Proof. unfold fits_word, word_min, word_max. rewrite andb_true_iff, !Z.leb_le. lia. Qed.
Lemma wrap_in z : - 2 ^ 63 <= wrap_word z < 2 ^ 63.
Proof. unfold wrap_word. pose proof (Z.mod_pos_bound (z + 2 ^ 63) (2 ^ 64) ltac:(lia)). lia. Qed.
Lemma checked_in z w : ovfcheck Translated z = Some w -> - 2 ^ 63 <= w < 2 ^ 63.
Proof. cbn [ovfcheck]. destruct (fits_word z) eqn:E; [|discriminate]. intros H. injection H as <-. exact (fits_in z E). Qed.
Lemma cast_in f z : py_int_of_float Translated f = Ok z -> - 2 ^ 63 <= z < 2 ^ 63.
Proof.
  unfold py_int_of_float. destruct (trunc_Z f) as [t|]; [|discriminate]. destruct (fits_word t) eqn:E; [|discriminate].
  intros H. injection H as <-. exact (fits_in t E).
Qed.
Lemma divided_in l r z : - 2 ^ 63 <= l < 2 ^ 63 -> - 2 ^ 63 <= r < 2 ^ 63 ->
  py_int_floordiv Translated l r = Ok z \/ py_int_mod Translated l r = Ok z \/ llop_int_mod Translated l r = Ok z -> - 2 ^ 63 <= z < 2 ^ 63.
Proof.
  intros L R. unfold py_int_floordiv, py_int_mod, llop_int_mod, word_min.
  destruct ((r =? 0) || ((l =? - 2 ^ 63) && (r =? -1)))%bool eqn:E; [intros [H|[H|H]]; discriminate H|].
  apply orb_false_iff in E. destruct E as [N M]. apply Z.eqb_neq in N. apply andb_false_iff in M. rewrite !Z.eqb_neq in M.
  intros [H|[H|H]]; injection H as <-.
  - pose proof (Z.div_mod l r N) as D. destruct (Z.lt_ge_cases 0 r) as [P|P].
    + pose proof (Z.mod_pos_bound l r P). nia.
    + pose proof (Z.mod_neg_bound l r ltac:(lia)). destruct (Z.eq_dec r (-1)) as [->|]; [lia|]. nia.
  - destruct (Z.lt_ge_cases 0 r) as [P|P]; [pose proof (Z.mod_pos_bound l r P)|pose proof (Z.mod_neg_bound l r ltac:(lia))]; lia.
  - pose proof (Z.rem_bound_abs l r N). lia.
Qed.
Lemma v_bool b : valid Translated (som_bool b).
Proof. destruct b; exact I. Qed.
Lemma v_big z : valid Translated (VBig z).
Proof. exact I. Qed.
Lemma v_dbl z : valid Translated (VDbl z).
Proof. exact I. Qed.

Ltac fits :=
  match goal with
  | H : Ok _ = Ok _ |- _ => injection H as <-; first [exact (v_bool _)|exact (v_big _)|exact (v_dbl _)|idtac]
  | H : Err _ = Ok _ |- _ => discriminate H
  end.
Lemma v_dbl_arith f r v :
  dbl_add Translated f r = Ok v \/ dbl_subtract Translated f r = Ok v \/ dbl_multiply Translated f r = Ok v \/ dbl_double_div Translated f r = Ok v \/
  dbl_modulo Translated f r = Ok v \/ dbl_remainder Translated f r = Ok v \/ dbl_int_div Translated f r = Ok v \/
  dbl_equals Translated f r = Ok v \/ dbl_unequals Translated f r = Ok v \/ dbl_less_than_or_equal Translated f r = Ok v \/
  dbl_greater_than Translated f r = Ok v \/ dbl_greater_than_or_equal Translated f r = Ok v \/ dbl_and Translated f r = Ok v -> valid Translated v.
Proof.
  unfold dbl_add, dbl_subtract, dbl_multiply, dbl_double_div, dbl_modulo, dbl_remainder, dbl_int_div, dbl_equals, dbl_unequals, dbl_less_than_or_equal, dbl_greater_than, dbl_greater_than_or_equal, dbl_and.
  intros [H|[H|[H|[H|[H|[H|[H|[H|[H|[H|[H|[H|H]]]]]]]]]]]]; took H; fits.
  exact (cast_in _ _ E1).
Qed.
Ltac of_double :=
  match goal with
  | H : ?op Translated ?f ?r = Ok ?v |- valid Translated ?v =>
      let X := fresh in
      assert (X : dbl_add Translated f r = Ok v \/ dbl_subtract Translated f r = Ok v \/ dbl_multiply Translated f r = Ok v \/ dbl_double_div Translated f r = Ok v \/
        dbl_modulo Translated f r = Ok v \/ dbl_remainder Translated f r = Ok v \/ dbl_int_div Translated f r = Ok v \/
        dbl_equals Translated f r = Ok v \/ dbl_unequals Translated f r = Ok v \/ dbl_less_than_or_equal Translated f r = Ok v \/
        dbl_greater_than Translated f r = Ok v \/ dbl_greater_than_or_equal Translated f r = Ok v \/ dbl_and Translated f r = Ok v) by tauto;
      exact (v_dbl_arith f r v X)
  end.
Lemma v_prims p l r v : In p arithmetic -> valid Translated l -> valid Translated r -> p Translated l r = Ok v -> valid Translated v.
Proof.
  intros P Vl Vr H. unfold arithmetic in P. cbn [In] in P.
  repeat destruct P as [<-|P]; [..|contradiction].
  all: match type of H with ?p _ _ _ = _ => unfold p in H end; destruct l as [ | | |x|x|x| | | ]; try discriminate H; try of_double.
  all: match type of H with ?p _ _ = _ => unfold p in H | ?p _ _ _ = _ => unfold p in H end; destruct r as [ | | |y|y|y| | | ]; cbn [embedded_integer bind] in H; try discriminate H.
  all: took H; try of_double; splits H; try fits.
  all: try (match goal with S : ovfcheck _ _ = Some _ |- _ => exact (checked_in _ _ S) end).
  all: try (eapply (divided_in x y); [exact Vl|exact Vr|eauto]; fail).
  all: try (exact (land_word x y Vl Vr)).
  all: exact I.
Qed.
Lemma v_send1 l sel r v : valid Translated l -> valid Translated r -> send1 Translated l sel r = Ok v -> valid Translated v.
Proof.
  intros Vl Vr H.
  assert (A : forall p, In p arithmetic -> p Translated l r = Ok v -> valid Translated v) by (intros p P; exact (v_prims p l r v P Vl Vr)).
  unfold arithmetic in A. cbn [In] in A. unfold send1 in H.
  destruct l as [ | | |x|x|x| | | ]; try discriminate H; unfold integer_binary, double_binary in H.
  all: repeat match type of H with
    | context [if String.eqb ?s ?k then _ else _] => destruct (String.eqb s k)
    end; try discriminate H.
  all: try (match type of H with ?p Translated _ _ = _ => exact (A p ltac:(tauto) H) end).
  all: try (unfold num_less_than in H; took H; fits).
  all: try (unfold int_equals_equals in H; destruct r; first [exact (A prim_equals ltac:(tauto) H)|injection H as <-; exact I]).
  all: try (unfold num_min, num_max in H; took H; match type of H with Ok (if ?b then _ else _) = _ => destruct b end; injection H as <-; assumption).
  all: try unfold p_left_shift in H; try unfold p_bit_xor in H; try unfold p_unsigned_right_shift in H; destruct r as [ | | |y|y|y| | | ]; try discriminate H; cbn [embedded_integer bind] in H; try discriminate H; took H; cbv zeta in H.
  all: splits H; try fits.
  all: try (match goal with S : ovfcheck _ _ = Some _ |- _ => exact (checked_in _ _ S) end).
  all: try exact (lxor_word x y Vl Vr).
  all: unfold unsigned_right_shift in E; destruct ((0 <=? y) && (y <? 64))%bool; [|discriminate E]; injection E as <-; exact (wrap_in _).
Qed.
Lemma v_send0 l sel v : valid Translated l -> send0 Translated l sel = Ok v -> valid Translated v.
Proof.
  intros Vl H. unfold send0 in H. destruct l as [ | | |x|x|x| | | ]; try discriminate H; unfold integer_unary, double_unary in H.
  all: repeat match type of H with
    | context [if String.eqb ?s ?k then _ else _] => destruct (String.eqb s k)
    end; try discriminate H.
  all: cbv beta iota delta [prim_as_double prim_as_32_bit_signed p_as_32_bit_unsigned prim_abs p_sqrt d_round d_as_integer embedded_integer int_as_32_bit_signed big_as_32_bit_signed int_abs big_abs] in H; cbn [bind] in H; try discriminate H.
  all: splits H; cbv zeta in H; took H; splits H; try fits.
  all: cbn [valid]; try (eapply cast_in; eassumption).
  - unfold as_32_bit_signed_value. pose proof (Z.mod_pos_bound (x + 2 ^ 31) (2 ^ 32) ltac:(lia)). lia.
  - unfold as_32_bit_unsigned_value. pose proof (Z.mod_pos_bound x (2 ^ 32) ltac:(lia)). lia.
  - exact (wrap_in _).
  - pose proof (Z.mod_pos_bound (Z.abs x) (2 ^ 63) ltac:(lia)). lia.
Qed.
Lemma v_incs l v : bc_inc Translated l = Ok v \/ bc_dec Translated l = Ok v -> valid Translated v.
Proof.
  intros [H|H]; destruct l as [ | | |x|x|x| | | ]; try discriminate H;
    cbv beta iota delta [bc_inc bc_dec prim_inc prim_dec int_inc int_dec big_inc big_dec dbl_inc dbl_dec] in H; splits H; try fits.
  all: exact (checked_in _ _ S).
Qed.
