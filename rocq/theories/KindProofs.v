(* Lemmas for C02, C03, C04, C18, C42 (proofs for PropToken.v). *)
From Coq Require Import ZifyBool ZifyNat ZifyN.
From Verif Require Import Token SpecToken TokenProofs.
Open Scope N_scope.

Lemma all_kinds_complete : forall k, In k all_kinds.
Proof. destruct k; cbn; tauto. Qed.
Lemma all_units_complete : forall u, In u all_units.
Proof. destruct u; vm_compute; tauto. Qed.
Lemma kind_roundtrip : forall k, kind_from_bits (kind_code k) = k.
Proof. destruct k; reflexivity. Qed.
Lemma kind_code_inj : forall a b, kind_code a = kind_code b -> a = b.
Proof. intros a b H. rewrite <- (kind_roundtrip a), <- (kind_roundtrip b), H. reflexivity. Qed.
Lemma kind_eqb_eq : forall a b, kind_eqb a b = true <-> a = b.
Proof.
  intros a b. unfold kind_eqb. rewrite N.eqb_eq. split; [apply kind_code_inj | now intros ->].
Qed.
Lemma kind_code_lt32 : forall k, kind_code k < 32.
Proof. destruct k; reflexivity. Qed.
Lemma kind_code_lt : forall k, kind_code k mod 32 = kind_code k.
Proof. destruct k; reflexivity. Qed.

Lemma well_formed_kind : forall t, well_formed t -> kind_bits t = kind_code (tkind t).
Proof.
  intros t H. unfold well_formed in H. apply in_map_iff in H. destruct H as (k & E & _).
  unfold tkind. rewrite <- E. now rewrite kind_roundtrip.
Qed.
Lemma tok_is_kind : forall t k, well_formed t -> (tok_is t k = true <-> tkind t = k).
Proof.
  intros t k H. unfold tok_is. rewrite (well_formed_kind t H), N.eqb_eq.
  split; [apply kind_code_inj | now intros ->].
Qed.

Lemma class_by_kind : forall (p : N -> bool) (ks : list kind),
  forallb (fun k => Bool.eqb (p (kind_code k)) (existsb (kind_eqb k) ks)) all_kinds = true ->
  forall t, well_formed t -> (p (kind_bits t) = true <-> In (tkind t) ks).
Proof.
  intros p ks H t W. rewrite (well_formed_kind t W).
  rewrite forallb_forall in H. specialize (H (tkind t) (all_kinds_complete _)).
  apply Bool.eqb_prop in H. rewrite H, existsb_exists. split.
  - intros (x & I & E). apply kind_eqb_eq in E. now subst.
  - intro I. exists (tkind t). split; [assumption | now apply kind_eqb_eq].
Qed.

Lemma delim_like_spec : forall t, well_formed t -> (is_delim_like t = true <-> In (tkind t) doc_delim_like).
Proof. exact (class_by_kind (fun b => N.land b 16 =? 16) doc_delim_like eq_refl). Qed.
Lemma ident_like_spec : forall t, well_formed t -> (is_ident_like t = true <-> In (tkind t) (K_Url :: doc_ident_like)).
Proof.
  exact (class_by_kind (fun b => (N.land b 24 =? 8) && negb (b =? kind_code K_String)) (K_Url :: doc_ident_like) eq_refl).
Qed.
Lemma numeric_spec : forall t, well_formed t ->
  (is_int t = true <-> In (tkind t) (K_BadString :: K_BadUrl :: doc_numeric) /\ third_bit t = false) /\
  (is_float t = true <-> In (tkind t) (K_BadString :: K_BadUrl :: doc_numeric) /\ third_bit t = true) /\
  (has_sign t = true <-> In (tkind t) (K_BadString :: K_BadUrl :: doc_numeric) /\ second_bit t = true).
Proof.
  intros t W.
  pose proof (class_by_kind (fun b => N.land b 28 =? 4) (K_BadString :: K_BadUrl :: doc_numeric) eq_refl t W) as H.
  unfold is_int, is_float, has_sign, is_numeric_kind. rewrite !andb_true_iff, !H, negb_true_iff. tauto.
Qed.
Lemma trivia_spec : forall t, well_formed t -> (is_trivia t = true <-> In (tkind t) (K_CdcOrCdo :: doc_trivia)).
Proof. exact (class_by_kind (fun b => N.land b 3 =? b) (K_CdcOrCdo :: doc_trivia) eq_refl). Qed.
Lemma bad_spec : forall t, well_formed t ->
  (is_bad t = true <-> In (tkind t) [K_Eof; K_Whitespace; K_Comment; K_CdcOrCdo; K_Number; K_Dimension; K_BadString; K_BadUrl]).
Proof. exact (class_by_kind (fun b => N.land (N.lor b 1) 25 =? 1) [K_Eof; K_Whitespace; K_Comment; K_CdcOrCdo; K_Number; K_Dimension; K_BadString; K_BadUrl] eq_refl). Qed.
Lemma cdc_spec : forall t, well_formed t -> (is_cdc t = true <-> tkind t = K_CdcOrCdo /\ third_bit t = true).
Proof. intros t W. unfold is_cdc. rewrite andb_true_iff. pose proof (tok_is_kind t K_CdcOrCdo W). unfold tok_is in H. tauto. Qed.
Lemma empty_spec : forall t, well_formed t -> (token_is_empty t = true <-> tkind t = K_Eof).
Proof. intros t W. exact (tok_is_kind t K_Eof W). Qed.

(* KindSet *)
Lemma land_pow2 : forall s n, negb (N.land s (N.shiftl 1 n) =? 0) = N.testbit s n.
Proof.
  intros s n. rewrite N.shiftl_1_l.
  destruct (N.testbit s n) eqn:E.
  - apply negb_true_iff, N.eqb_neq. intro H.
    assert (N.testbit (N.land s (2 ^ n)) n = false) by (rewrite H; apply N.bits_0).
    rewrite N.land_spec, E, N.pow2_bits_true in H0. discriminate.
  - apply negb_false_iff, N.eqb_eq. apply N.bits_inj_iff. intro i.
    rewrite N.land_spec, N.bits_0. destruct (N.eq_dec i n) as [-> | D].
    + now rewrite E.
    + rewrite N.pow2_bits_false by auto. apply andb_false_r.
Qed.
Lemma contains_testbit : forall s k, kindset_contains s k = N.testbit s (kind_code k).
Proof. intros. unfold kindset_contains. now rewrite land_pow2, kind_code_lt. Qed.
Lemma add_testbit : forall s k k', kindset_contains (kindset_add s k) k' = kindset_contains s k' || kind_eqb k k'.
Proof.
  intros. rewrite !contains_testbit. unfold kindset_add. rewrite kind_code_lt, N.lor_spec, N.shiftl_1_l. f_equal.
  unfold kind_eqb. apply N.pow2_bits_eqb.
Qed.
Lemma fold_add : forall ks s k, kindset_contains (fold_left (fun u x => N.lor u (N.shiftl 1 (kind_code x mod 32))) ks s) k
  = kindset_contains s k || existsb (kind_eqb k) ks.
Proof.
  induction ks as [| a ks IH]; intros s k; cbn [fold_left existsb]; [now rewrite orb_false_r |].
  rewrite IH. change (N.lor s (N.shiftl 1 (kind_code a mod 32))) with (kindset_add s a).
  rewrite add_testbit, <- orb_assoc. f_equal. f_equal. unfold kind_eqb. apply N.eqb_sym.
Qed.
Lemma kindset_new_spec : forall ks k, kindset_contains (kindset_new ks) k = true <-> In k ks.
Proof.
  intros ks k. unfold kindset_new. rewrite fold_add. rewrite contains_testbit, N.bits_0. cbn [orb].
  rewrite existsb_exists. split.
  - intros (x & I & E). apply kind_eqb_eq in E. now subst.
  - intro I. exists k. split; [assumption | now apply kind_eqb_eq].
Qed.
Lemma kindset_add_spec : forall s k k', kindset_contains (kindset_add s k) k' = true <-> kindset_contains s k' = true \/ k' = k.
Proof.
  intros. rewrite add_testbit, orb_true_iff, kind_eqb_eq. split; intros [H | H]; auto.
Qed.
Lemma kindset_any_spec : forall k, kindset_contains KS_ANY k = true.
Proof. destruct k; reflexivity. Qed.
Lemma kindset_token : forall t s, well_formed t -> tok_in t s = kindset_contains s (tkind t).
Proof. intros t s W. unfold tok_in, kindset_contains_bits, kindset_contains. now rewrite (well_formed_kind t W). Qed.

(* Units *)
Lemma unit_code_inj : forall a b, unit_code a = unit_code b -> a = b.
Proof. intros a b H. rewrite <- (unit_roundtrip a), <- (unit_roundtrip b), H. reflexivity. Qed.
Lemma unit_len_spec : forall u, unit_len u = blen (unit_str u).
Proof. destruct u; reflexivity. Qed.
Lemma unit_names : forall u n, In (u, n) css_unit_names -> u <> U_Svmax -> u <> U_Svmin -> unit_str u = chars n.
Proof.
  intros u n H A B.
  assert (F : forallb (fun p => match fst p with U_Svmax | U_Svmin => true
                       | u => if list_eq_dec N.eq_dec (unit_str u) (chars (snd p)) then true else false end) css_unit_names = true)
    by (vm_compute; reflexivity).
  rewrite forallb_forall in F. specialize (F _ H). cbn [fst snd] in F.
  destruct u; try congruence; match type of F with (if ?d then _ else _) = _ => destruct d; [assumption | discriminate] end.
Qed.
Lemma unit_names_total : forall u, u <> U_Unknown -> exists n, In (u, n) css_unit_names.
Proof.
  intros u H.
  destruct (find (fun p => unit_code (fst p) =? unit_code u) css_unit_names) as [[v n] |] eqn:E.
  - apply find_some in E. destruct E as (I & E). cbn [fst] in E. apply N.eqb_eq in E. apply unit_code_inj in E.
    subst v. now exists n.
  - exfalso. destruct u; try congruence; discriminate E.
Qed.

Lemma constants_read : forall c t, In (c, t) punctuation_constants ->
  tchar t = Some c /\ tlen t = 1 /\ len_utf8 c = 1 /\ well_formed t /\ In (tkind t) doc_delim_like.
Proof.
  intros c t H.
  assert (F : forallb (fun p => match tchar (snd p) with Some d => d =? fst p | None => false end
       && (tlen (snd p) =? 1) && (len_utf8 (fst p) =? 1) && existsb (kind_eqb (tkind (snd p))) doc_delim_like
       && existsb (N.eqb (kind_bits (snd p))) (map kind_code all_kinds)) punctuation_constants = true)
    by (vm_compute; reflexivity).
  rewrite forallb_forall in F. specialize (F _ H). cbn [fst snd] in F. rewrite !andb_true_iff in F.
  destruct F as ((((A & B) & C) & D) & E). repeat split.
  - destruct (tchar t); [| discriminate]. apply N.eqb_eq in A. now subst.
  - now apply N.eqb_eq.
  - now apply N.eqb_eq.
  - unfold well_formed. apply existsb_exists in E. destruct E as (x & I & E). apply N.eqb_eq in E. now subst.
  - apply existsb_exists in D. destruct D as (x & I & E'). apply kind_eqb_eq in E'. now subst.
Qed.

Lemma pairwise_kind : forall t p o c ks, In (p, (o, c), ks) bracket_table ->
  (to_pairwise t = Some p <-> In (tkind t) ks).
Proof.
  intros t p o c ks H. unfold to_pairwise. unfold bracket_table in H.
  cbn [In] in H. destruct H as [H | [H | [H | []]]]; inversion H; subst;
    destruct (tkind t); cbn [In]; split; intro X; try discriminate X; try reflexivity; try tauto;
    repeat (destruct X as [X | X]; try discriminate X; try contradiction).
Qed.
Lemma pairwise_ends : forall p o c ks, In (p, (o, c), ks) bracket_table ->
  tchar (pair_start p) = Some o /\ tchar (pair_end p) = Some c
  /\ to_pairwise (pair_start p) = Some p /\ to_pairwise (pair_end p) = Some p.
Proof.
  intros p o c ks H. cbn [bracket_table In] in H. destruct H as [H | [H | [H | []]]]; inversion H; subst; repeat split.
Qed.
Lemma pairwise_total : forall p, exists o c ks, In (p, (o, c), ks) bracket_table.
Proof. destruct p; repeat eexists; cbn; eauto. Qed.
