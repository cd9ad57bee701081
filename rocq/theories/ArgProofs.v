From Coq Require Import ZArith Bool String Ascii List Lia.
From Verif Require Import Base ArgModel ArgSpec.
Import ListNotations.
Open Scope list_scope.
Open Scope string_scope.

Lemma split_on_ne c s : split_on c s <> [].
Proof. destruct s; cbn; [discriminate|]. destruct (Ascii.eqb a c); [discriminate|]. destruct (split_on c s); discriminate. Qed.
Lemma split_on_ok c s : String.concat (String c "") (split_on c s) = s /\ Forall (no_char c) (split_on c s).
Proof.
  induction s as [|a t [IH1 IH2]]; cbn [split_on].
  - split; [reflexivity|]. repeat constructor. intros [].
  - assert (N := split_on_ne c t). destruct (Ascii.eqb_spec a c).
    + subst. split.
      * destruct (split_on c t) eqn:E; [congruence|]. cbn [String.concat]. cbn [String.concat] in IH1.
        rewrite IH1. reflexivity.
      * constructor; auto. intros [].
    + destruct (split_on c t) as [|p r] eqn:E; [congruence|]. inversion IH2; subst. split.
      * cbn [String.concat]. destruct r; reflexivity.
      * constructor; auto. unfold no_char. cbn. intros [X|X]; auto.
Qed.
Lemma no_char_app c a b : no_char c (a ++ b) <-> no_char c a /\ no_char c b.
Proof.
  unfold no_char. assert (E : list_ascii_of_string (a ++ b) = (list_ascii_of_string a ++ list_ascii_of_string b)%list).
  { induction a; cbn; congruence. }
  rewrite E, in_app_iff. tauto.
Qed.
Lemma rsplit1_some c s x y : rsplit1 c s = Some (x, y) -> s = x ++ String c y /\ no_char c y.
Proof.
  revert x y. induction s as [|a t IH]; intros x y; cbn [rsplit1]; [discriminate|].
  destruct (rsplit1 c t) as [[x' y']|] eqn:E.
  - intros [= <- <-]. destruct (IH _ _ eq_refl) as [-> N]. split; auto.
  - destruct (Ascii.eqb_spec a c); [|discriminate]. intros [= <- <-]. subst. split; [reflexivity|].
    clear -E. induction t as [|b t IH]; [intros []|]. cbn in E. destruct (rsplit1 c t) as [[? ?]|]; [discriminate|].
    destruct (Ascii.eqb_spec b c); [discriminate|]. intros [X|X]; auto. apply IH; auto.
Qed.
Lemma rsplit1_none c s : rsplit1 c s = None <-> no_char c s.
Proof.
  induction s as [|a t IH]; cbn [rsplit1].
  - split; auto. intros _ [].
  - destruct (rsplit1 c t) as [[x y]|].
    + split; [discriminate|]. intros N. exfalso. destruct IH as [_ IH]. discriminate IH. intros X. apply N. right; auto.
    + destruct (Ascii.eqb_spec a c).
      * split; [discriminate|]. intros N. exfalso. apply N. left. auto.
      * split; auto. intros _ [X|X]; auto. destruct IH as [IH _]. apply IH; auto.
Qed.
Lemma app_inj_last c x y x' y' : no_char c y -> no_char c y' -> x ++ String c y = x' ++ String c y' -> x = x' /\ y = y'.
Proof.
  revert x'. induction x as [|a x IH]; intros [|b x'] Ny Ny' E; cbn in E.
  - injection E as ->. auto.
  - injection E as -> ->. exfalso. apply no_char_app in Ny. apply (proj2 Ny). left. auto.
  - injection E as -> <-. exfalso. apply no_char_app in Ny'. apply (proj2 Ny'). left. auto.
  - injection E as -> E. destruct (IH x' Ny Ny' E) as [-> ->]. auto.
Qed.
Lemma path_split_ok p : let '(dir, file, _) := path_split p in
  exists f, dir_and_file p dir f /\ class_name_of f file.
Proof.
  unfold path_split, dir_and_file, class_name_of. destruct (rsplit1 "/" p) as [[x y]|] eqn:E.
  - apply rsplit1_some in E. destruct E as [-> N]. destruct (rsplit1 "." y) as [[n e]|] eqn:F.
    + apply rsplit1_some in F. destruct F as [-> M]. exists (n ++ String "." e). split; [right; auto|]. right. exists e. auto.
    + exists y. split; [right; auto|]. left. apply rsplit1_none in F. auto.
  - apply rsplit1_none in E. destruct (rsplit1 "." p) as [[n e]|] eqn:F.
    + apply rsplit1_some in F. destruct F as [-> M]. exists (n ++ String "." e). split; [left; auto|]. right. exists e. auto.
    + exists p. split; [left; auto|]. left. apply rsplit1_none in F. auto.
Qed.
Lemma path_split_unique p dir f file : dir_and_file p dir f -> class_name_of f file ->
  exists e, path_split p = (dir, file, e).
Proof.
  intros D C.
  assert (S1 : (match rsplit1 "/" p with Some (x, y) => (x, y) | None => ("", p) end) = (dir, f)).
  { destruct D as [(N & -> & ->)|(-> & N)].
    - apply rsplit1_none in N. rewrite N. auto.
    - change (dir ++ "/" ++ f) with (dir ++ String "/" f).
      destruct (rsplit1 "/" (dir ++ String "/" f)) as [[x y]|] eqn:E.
      + apply rsplit1_some in E. destruct E as [E M]. destruct (app_inj_last _ _ _ _ _ N M E) as [-> ->]. auto.
      + apply rsplit1_none in E. exfalso. apply no_char_app in E. apply (proj2 E). left. auto. }
  unfold path_split. rewrite S1. destruct C as [(N & ->)|(ext & -> & N)].
  - apply rsplit1_none in N. rewrite N. eauto.
  - change (file ++ "." ++ ext) with (file ++ String "." ext).
    destruct (rsplit1 "." (file ++ String "." ext)) as [[x y]|] eqn:E.
    + apply rsplit1_some in E. destruct E as [E M]. destruct (app_inj_last _ _ _ _ _ N M E) as [-> ->]. eauto.
    + apply rsplit1_none in E. exfalso. apply no_char_app in E. apply (proj2 E). left. auto.
Qed.

(** The loop over options. *)
Definition apply_opt (a : acc) (o : opt) : acc :=
  match o with OCp d => with_cp a d | ODump => with_dump a | ONoGc => a end.
Lemma apply_others os : forall a, a_others (fold_left apply_opt os a) = a_others a.
Proof. induction os as [|[] os IH]; intros a; cbn; auto; rewrite IH; auto. Qed.
Lemma apply_rest os : forall a, a_rest (fold_left apply_opt os a) = a_rest a.
Proof. induction os as [|[] os IH]; intros a; cbn; auto; rewrite IH; auto. Qed.
Lemma loop_opts avoid os : forall a t, a_others a = false ->
  arg_loop avoid (flat_map written os ++ t) a = arg_loop avoid t (fold_left apply_opt os a).
Proof.
  induction os as [|o os IH]; intros a t H; [reflexivity|].
  destruct o; cbn [flat_map written app fold_left apply_opt]; cbn [arg_loop]; rewrite H; cbn; apply IH; auto.
Qed.
Lemma loop_rest avoid l : forall a, a_others a = true ->
  arg_loop avoid l a = inr {| a_cp := a_cp a; a_dump := a_dump a; a_rest := a_rest a ++ l; a_others := true |}.
Proof.
  induction l as [|x l IH]; intros a H; cbn [arg_loop].
  - rewrite app_nil_r. destruct a; cbn in *; subst; auto.
  - rewrite H. cbn [negb]. rewrite !andb_false_r. rewrite IH by auto. cbn. rewrite <- app_assoc. auto.
Qed.
Lemma not_option_word x : ~ In x option_words ->
  String.eqb x "-cp" = false /\ String.eqb x "-d" = false /\ existsb (String.eqb x) ["-h"; "--help"; "-?"] = false
  /\ String.eqb x "--no-gc" = false.
Proof.
  intros N. cbn [option_words app help_words In existsb] in *.
  assert (E : forall w, (w = x -> False) -> String.eqb x w = false).
  { intros w H. apply String.eqb_neq. intros ->. apply H. auto. }
  split; [apply E; tauto|]. split; [apply E; tauto|]. split; [|apply E; tauto].
  rewrite !E by tauto. auto.
Qed.
Lemma last_cp os : forall a cp, (forall s, ~ In (OCp s) os) ->
  a_cp (fold_left apply_opt os a) = cp <-> a_cp a = cp.
Proof.
  induction os as [|o os IH]; intros a cp H; cbn [fold_left]; [tauto|].
  rewrite IH by (intros s I; apply (H s); right; auto).
  destruct o; cbn; try tauto. exfalso. apply (H directories). left. auto.
Qed.
Lemma dump_fold os : forall a, a_dump (fold_left apply_opt os a) = true <-> a_dump a = true \/ In ODump os.
Proof.
  induction os as [|o os IH]; intros a; cbn [fold_left In]; [tauto|].
  rewrite IH. destruct o; cbn [apply_opt with_cp with_dump a_dump].
  - split; [tauto|]. intros [H|[H|H]]; auto. discriminate.
  - tauto.
  - split; [tauto|]. intros [H|[H|H]]; auto. discriminate.
Qed.
Lemma meant_ok os a : a_cp a = None ->
  meant_classpath os (match a_cp (fold_left apply_opt os a) with Some cp => cp | None => ["."] end).
Proof.
  intros H. assert (D : (forall s, ~ In (OCp s) os) \/ exists pre s post, os = (pre ++ OCp s :: post)%list /\ (forall s', ~ In (OCp s') post)).
  { clear. induction os as [|o os IH]; [left; intros s []|]. destruct IH as [IH|(pre & s & post & -> & N)].
    - destruct o as [d| |].
      + right. exists [], d, os. auto.
      + left. intros s [X|X]; [discriminate|eapply IH; eauto].
      + left. intros s [X|X]; [discriminate|eapply IH; eauto].
    - right. exists (o :: pre), s, post. auto. }
  destruct D as [N|(pre & s & post & -> & N)].
  - right. split; auto. assert (E := proj2 (last_cp os a None N) H). rewrite E. auto.
  - left. exists pre, s, post. split; [auto|split; [auto|]].
    rewrite fold_left_app. cbn [fold_left apply_opt].
    assert (E := proj2 (last_cp post (with_cp (fold_left apply_opt pre a) s) (Some (split_on ":" s)) N) eq_refl).
    rewrite E. split; [apply split_on_ne|]. apply (split_on_ok ":" s).
Qed.
