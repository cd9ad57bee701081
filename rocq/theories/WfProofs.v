(** Proofs about the doubles programs compute. *)
From Coq Require Import ZArith Bool String List Lia Floats.SpecFloat.
From Verif Require Import Base NumModel NumSpec DblSpec DblProofs DblRound DblArith FltModel FltSpec FltProofs FltOps FltRoot DecModel DecSpec DecProofs WfSpec.
Import ListNotations.
Open Scope Z_scope.

Lemma closed_add f g : binary64 f -> binary64 g -> binary64 (fadd f g) /\ binary64 (fsub f g).
Proof.
  intros Bf Bg. destruct (units f) as [u|] eqn:Uf, (units g) as [v|] eqn:Ug.
  - destruct (rounds_sum f g u v Bf Bg Uf Ug) as (R & R'). split; [exact (proj1 R)|exact (proj1 R')].
  - destruct g as [|[]| |]; try discriminate Ug; destruct f as [|[]| |]; split; exact I.
  - destruct f as [|[]| |]; try discriminate Uf; destruct g as [|[]| |]; split; exact I.
  - destruct f as [|[]| |]; try discriminate Uf; destruct g as [|[]| |]; split; exact I.
Qed.
Lemma closed_mul f g : binary64 f -> binary64 g -> binary64 (fmul f g).
Proof.
  intros Bf Bg. destruct (units f) as [u|] eqn:Uf, (units g) as [v|] eqn:Ug.
  - exact (proj1 (rounds_mul f g u v Bf Bg Uf Ug)).
  - destruct g as [|[]| |]; try discriminate Ug; destruct f as [|[]| |]; exact I.
  - destruct f as [|[]| |]; try discriminate Uf; destruct g as [|[]| |]; exact I.
  - destruct f as [|[]| |]; try discriminate Uf; destruct g as [|[]| |]; exact I.
Qed.
Lemma units_nonzero s p e : binary64 (S754_finite s p e) -> exists v, units (S754_finite s p e) = Some v /\ v <> 0.
Proof.
  intros (_ & He & _). cbn [units]. eexists. split; [reflexivity|].
  assert (0 < 2 ^ (e + 1074)) by (apply Z.pow_pos_nonneg; lia). destruct s; cbn [cond_Zopp]; nia.
Qed.
Lemma closed_div f g : binary64 f -> binary64 g -> binary64 (fdiv f g).
Proof.
  intros Bf Bg. destruct g as [s|s| |s p e]; try (destruct f; exact I).
  destruct (units_nonzero s p e Bg) as (v & Ug & Nv). destruct (units f) as [u|] eqn:Uf.
  - exact (proj1 (rounds_div f _ u v Bf Bg Uf Ug Nv)).
  - destruct f as [|[]| |]; try discriminate Uf; exact I.
Qed.
Lemma closed_fmod f g h : binary64 f -> binary64 g -> py_fmod f g = Ok h -> binary64 h.
Proof.
  intros Bf Bg H. destruct g as [s|s| |s p e].
  - destruct f; try discriminate H; injection H as <-; exact I.
  - destruct f; try discriminate H; injection H as <-; first [exact I|exact Bf].
  - destruct f; try discriminate H; injection H as <-; exact I.
  - destruct (units_nonzero s p e Bg) as (v & Ug & Nv). destruct (units f) as [u|] eqn:Uf.
    + destruct (fmod_exact f _ u v Bf Bg Uf Ug Nv) as (h' & E & B & _). congruence.
    + destruct f as [|[]| |]; try discriminate Uf; try discriminate H; injection H as <-; exact I.
Qed.
Lemma closed_int z : binary64 (float_of_Z z).
Proof. exact (proj1 (rounds_int z)). Qed.
Lemma closed_big z f : big_tofloat z = Ok f -> binary64 f.
Proof.
  unfold big_tofloat. pose proof (closed_int z) as B. destruct (float_of_Z z); intros H; try discriminate H; injection H as <-; exact B.
Qed.
Lemma closed_tofloat m z f : int_tofloat m z = Ok f -> binary64 f.
Proof. destruct m; cbn [int_tofloat]; intros H; [|]; first [injection H as <-; exact (closed_int z)|exact (closed_big z f H)]. Qed.
Lemma closed_truediv x y f : big_truediv x y = Ok f -> binary64 f.
Proof.
  intros H. destruct (Z.eq_dec y 0) as [->|Ny]; [discriminate H|].
  destruct (rounds_truediv x y Ny) as (g & R & E). rewrite E in H. pose proof (proj1 R) as B.
  destruct g; try discriminate H; injection H as <-; exact B.
Qed.
Lemma closed_sqrt f : binary64 f -> binary64 (fsqrt f).
Proof.
  intros B. destruct f as [s|[]| |[] p e]; try exact I. exact (proj1 (rounds_sqrt p e B)).
Qed.
Lemma closed_get m v f : well_formed v -> get_float m v = Ok f -> binary64 f.
Proof.
  intros W H. destruct v; cbn [get_float] in H; try discriminate H.
  all: first [exact (closed_tofloat _ _ _ H)|exact (closed_big _ _ H)|injection H as <-; exact (W _ eq_refl)].
Qed.
Lemma closed_fdiv m f g h : binary64 f -> binary64 g -> py_fdiv m f g = Ok h -> binary64 h.
Proof.
  intros Bf Bg H. assert (E : h = fdiv f g) by (unfold py_fdiv in H; destruct m, g; try discriminate H; injection H as <-; reflexivity).
  rewrite E. exact (closed_div f g Bf Bg).
Qed.
Lemma wf_bool b : well_formed (som_bool b).
Proof. intros f. destruct b; discriminate. Qed.

(** What is left of a computation that succeeded. *)
Ltac took H :=
  repeat match type of H with
  | bind ?x _ = Ok _ => let E := fresh "E" in destruct x eqn:E; cbn [bind] in H; [|discriminate H]
  end.
Ltac answered :=
  match goal with
  | H : Ok _ = Ok _ |- _ => injection H as <-; first [exact (wf_bool _)|intros ? ?; discriminate|idtac]
  | H : Err _ = Ok _ |- _ => discriminate H
  end.
Ltac a_double := let X := fresh in intros ? X; injection X as <-.

Lemma wf_dbl_arith m f r v : binary64 f -> well_formed r ->
  dbl_add m f r = Ok v \/ dbl_subtract m f r = Ok v \/ dbl_multiply m f r = Ok v \/ dbl_double_div m f r = Ok v \/
  dbl_modulo m f r = Ok v \/ dbl_remainder m f r = Ok v \/ dbl_int_div m f r = Ok v -> well_formed v.
Proof.
  intros B W [H|[H|[H|[H|[H|[H|H]]]]]].
  - unfold dbl_add in H. took H. answered. a_double. exact (proj1 (closed_add _ _ B (closed_get _ _ _ W E))).
  - unfold dbl_subtract in H. took H. answered. a_double. exact (proj2 (closed_add _ _ B (closed_get _ _ _ W E))).
  - unfold dbl_multiply in H. took H. answered. a_double. exact (closed_mul _ _ B (closed_get _ _ _ W E)).
  - unfold dbl_double_div in H. took H. answered. a_double. exact (closed_fdiv _ _ _ _ B (closed_get _ _ _ W E) E0).
  - unfold dbl_modulo in H. took H. answered. a_double. exact (closed_fmod _ _ _ B (closed_get _ _ _ W E) E0).
  - unfold dbl_remainder in H. took H. answered. a_double. exact (closed_fmod _ _ _ B (closed_get _ _ _ W E) E0).
  - unfold dbl_int_div in H. took H. answered.
Qed.
Lemma wf_dbl_compare m f r v :
  dbl_equals m f r = Ok v \/ dbl_unequals m f r = Ok v \/ dbl_less_than_or_equal m f r = Ok v \/
  dbl_greater_than m f r = Ok v \/ dbl_greater_than_or_equal m f r = Ok v \/ dbl_and m f r = Ok v -> well_formed v.
Proof.
  unfold dbl_equals, dbl_unequals, dbl_less_than_or_equal, dbl_greater_than, dbl_greater_than_or_equal, dbl_and.
  intros [H|[H|[H|[H|[H|H]]]]]; took H; answered.
Qed.
Ltac by_double :=
  match goal with
  | H : ?op ?m ?f ?r = Ok ?v |- well_formed ?v =>
      let X := fresh in
      first [discriminate H
            |assert (X : dbl_equals m f r = Ok v \/ dbl_unequals m f r = Ok v \/ dbl_less_than_or_equal m f r = Ok v \/
               dbl_greater_than m f r = Ok v \/ dbl_greater_than_or_equal m f r = Ok v \/ dbl_and m f r = Ok v) by tauto;
             exact (wf_dbl_compare m f r v X)
            |assert (X : dbl_add m f r = Ok v \/ dbl_subtract m f r = Ok v \/ dbl_multiply m f r = Ok v \/ dbl_double_div m f r = Ok v \/
               dbl_modulo m f r = Ok v \/ dbl_remainder m f r = Ok v \/ dbl_int_div m f r = Ok v) by tauto;
             refine (wf_dbl_arith m f r v _ _ X); [first [eapply closed_tofloat; eassumption|eapply closed_big; eassumption|auto]|assumption]]
  end.
Ltac splits H :=
  repeat match type of H with
  | (match ?x with _ => _ end) = Ok _ => let E := fresh "S" in destruct x eqn:E; try discriminate H
  end.

(** The messages with one argument that answer something else than an operand. *)
Definition arithmetic : list (mode -> value -> value -> res value) :=
  [prim_add; prim_subtract; prim_multiply; prim_double_div; prim_int_div; prim_modulo; prim_remainder; prim_and;
   prim_equals; prim_unequals; prim_less_than_or_equal; prim_greater_than; prim_greater_than_or_equal].
Lemma wf_prims m p l r v : In p arithmetic -> well_formed l -> well_formed r -> p m l r = Ok v -> well_formed v.
Proof.
  intros P Wl Wr H. unfold arithmetic in P. cbn [In] in P.
  repeat destruct P as [<-|P]; [..|contradiction].
  all: match type of H with ?p _ _ _ = _ => unfold p in H end; destruct l as [ | | |x|x|x| | | ]; try discriminate H; try by_double.
  all: match type of H with ?p _ _ = _ => unfold p in H | ?p _ _ _ = _ => unfold p in H end; destruct r as [ | | |y|y|y| | | ]; cbn [embedded_integer bind] in H; try discriminate H.
  all: took H; try by_double; splits H; try answered.
  all: a_double.
  all: try (eapply closed_truediv; eassumption).
  all: try (eapply closed_fdiv; [..|eassumption]; eapply closed_tofloat; eassumption).
Qed.

Lemma wf_send1 m l sel r v : well_formed l -> well_formed r -> send1 m l sel r = Ok v -> well_formed v.
Proof.
  intros Wl Wr H.
  assert (A : forall p, In p arithmetic -> p m l r = Ok v -> well_formed v) by (intros p P; exact (wf_prims m p l r v P Wl Wr)).
  unfold arithmetic in A. cbn [In] in A. unfold send1 in H.
  destruct l as [ | | |x|x|x| | | ]; try discriminate H; unfold integer_binary, double_binary in H.
  all: repeat match type of H with
    | context [if String.eqb ?s ?k then _ else _] => destruct (String.eqb s k)
    end; try discriminate H.
  all: try (match type of H with ?p ?n _ _ = _ => exact (A p ltac:(tauto) H) end).
  all: try (unfold num_less_than in H; took H; answered).
  all: try (unfold int_equals_equals in H; destruct r; first [answered|exact (A prim_equals ltac:(tauto) H)]).
  all: try (unfold num_min, num_max in H; took H; match type of H with Ok (if ?b then _ else _) = _ => destruct b end; injection H as <-; assumption).
  all: try unfold p_left_shift in H; try unfold p_bit_xor in H; try unfold p_unsigned_right_shift in H; destruct r; try discriminate H; took H; cbv zeta in H.
  all: splits H; try answered.
Qed.
Lemma wf_send0 m l sel v : send0 m l sel = Ok v -> well_formed v.
Proof.
  intros H. unfold send0 in H. destruct l as [ | | |x|x|x| | | ]; try discriminate H; unfold integer_unary, double_unary in H.
  all: repeat match type of H with
    | context [if String.eqb ?s ?k then _ else _] => destruct (String.eqb s k)
    end; try discriminate H.
  all: cbv beta iota delta [prim_as_double prim_as_32_bit_signed p_as_32_bit_unsigned prim_abs p_sqrt d_round d_as_integer embedded_integer int_as_32_bit_signed big_as_32_bit_signed int_abs big_abs] in H; cbn [bind] in H; try discriminate H.
  all: splits H; cbv zeta in H; took H; splits H; try answered.
  all: a_double; first [eapply closed_tofloat; eassumption|eapply closed_big; eassumption|apply closed_sqrt; eapply closed_tofloat; eassumption].
Qed.
Lemma wf_d_sqrt l v : well_formed l -> d_sqrt l = Ok v -> well_formed v.
Proof.
  intros W H. destruct l; try discriminate H. cbn [d_sqrt] in H. took H. answered. a_double.
  assert (X : a = fsqrt f) by (destruct f as [|[]| |[]]; try discriminate E; injection E as <-; reflexivity). rewrite X. exact (closed_sqrt f (W f eq_refl)).
Qed.
Lemma wf_incs m l v : well_formed l -> bc_inc m l = Ok v \/ bc_dec m l = Ok v -> well_formed v.
Proof.
  intros W [H|H]; destruct l as [ | | |x|x|x| | | ]; try discriminate H;
    cbv beta iota delta [bc_inc bc_dec prim_inc prim_dec int_inc int_dec big_inc big_dec dbl_inc dbl_dec] in H; splits H; try answered.
  - a_double. exact (proj1 (closed_add _ _ (W x eq_refl) (closed_int 1))).
  - a_double. exact (proj2 (closed_add _ _ (W x eq_refl) (closed_int 1))).
Qed.
Lemma closed_decimal n k : binary64 (decimal_double n k).
Proof.
  unfold decimal_double. destruct (big_truediv n (10 ^ Z.of_nat k)) eqn:E; [exact (closed_truediv _ _ _ E)|exact I].
Qed.
Lemma closed_unsigned s f : unsigned_float s = Ok f -> binary64 f.
Proof.
  unfold unsigned_float. cbv zeta. intros H. splits H. injection H as <-. apply closed_decimal.
Qed.
Lemma closed_opp f : binary64 f -> binary64 (SFopp f).
Proof. destruct f; intros B; exact B. Qed.
Lemma closed_float s f : py_float s = Ok f -> binary64 f.
Proof.
  unfold py_float. intros H. splits H; try exact (closed_unsigned _ _ H).
  all: took H; injection H as <-; apply closed_opp; exact (closed_unsigned _ _ E).
Qed.
Lemma wf_texts neg s v : literal_double neg s = Ok v \/ double_from_string s = Ok v -> well_formed v.
Proof.
  unfold literal_double, double_from_string. intros [H|H]; destruct (py_float s) as [f|[]] eqn:E; try discriminate H; answered; a_double.
  - destruct neg; [|exact (closed_float s f E)]. exact (proj2 (closed_add (S754_zero false) f I (closed_float s f E))).
  - exact (closed_float s f E).
Qed.
Lemma wf_computed m v : computed m v -> well_formed v.
Proof.
  induction 1 as [v H|neg s v H|s v H| |a sel b v A IHa B IHb H|a sel v A IHa H|a v A IHa H|a v A IHa H|a v A IHa H].
  - intros f E. destruct (H f E).
  - exact (wf_texts neg s v (or_introl H)).
  - exact (wf_texts false s v (or_intror H)).
  - a_double. exact I.
  - exact (wf_send1 m a sel b v IHa IHb H).
  - exact (wf_send0 m a sel v H).
  - exact (wf_d_sqrt a v IHa H).
  - exact (wf_incs m a v IHa (or_introl H)).
  - exact (wf_incs m a v IHa (or_intror H)).
Qed.
