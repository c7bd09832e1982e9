(* Dimension units and numeric tokens. *)
From Coq Require Import ZifyBool ZifyNat ZifyN String.
From Verif Require Import Lexer SpecToken SpecLex LexBase ScanProofs ScanProofs2 NumProofs TokenProofs KindProofs.
Open Scope N_scope.
Open Scope list_scope.
Ltac Zify.zify_post_hook ::= Z.div_mod_to_equations.


Fixpoint words (t : trie) (u : unit_t) : list (list (list N) * unit_t) :=
  match t with
  | TLeaf => [([], u)]
  | TBr alts v child next =>
      map (fun pw => (alts :: fst pw, snd pw)) (words child (match v with Some x => x | None => u end)) ++ words next u
  end.
(* every alternative is an ASCII letter, so NUL / end of input never matches *)
Definition is_letter (c : N) : bool := in_range 65 90 c || in_range 97 122 c.
Fixpoint trie_ok (t : trie) : bool :=
  match t with TLeaf => true | TBr alts _ child next => forallb is_letter alts && trie_ok child && trie_ok next end.
Lemma dim_trie_ok : trie_ok dim_trie = true. Proof. vm_compute. reflexivity. Qed.
Lemma is_letter_spec : forall c, is_letter c = true <-> letter c.
Proof. intro c. unfold is_letter, in_range, letter, upper, lower. lia. Qed.

Lemma trie_walk_words : forall t u n l, trie_ok t = true -> exists p r u' path,
  trie_walk t u n l = (u', n + N.of_nat (List.length p), r) /\ l = p ++ r /\
  In (path, u') (words t u) /\ Forall2 (fun c alts => In c alts) p path /\ Forall letter p.
Proof.
  induction t as [| alts v child IHc next IHn]; intros u n l OK; cbn [trie_walk].
  - exists [], l, u, []. repeat split; auto; [cbn; do 2 f_equal; lia | now left].
  - cbn [trie_ok] in OK. rewrite !andb_true_iff in OK. destruct OK as ((OA & OC) & ON).
    destruct (existsb (N.eqb (peek_nth l 0)) alts) eqn:E.
    + apply existsb_exists in E. destruct E as (a & Ia & Ea). apply N.eqb_eq in Ea.
      assert (La : letter a) by (rewrite forallb_forall in OA; apply OA in Ia; now apply is_letter_spec).
      destruct l as [| c l]; [rewrite peek_nil in Ea; subst; unfold letter, upper, lower in La; lia |]. rewrite peek0 in Ea. subst c. cbn [tl].
      destruct (IHc (match v with Some x => x | None => u end) (n + 1) l OC) as (p & r & u' & path & -> & El & Ip & F & G).
      exists (a :: p), r, u', (alts :: path). repeat split.
      * do 2 f_equal. cbn [List.length]. lia.
      * cbn. now f_equal.
      * cbn [words]. apply in_or_app. left. apply in_map_iff. exists (path, u'). auto.
      * now constructor.
      * now constructor.
    + destruct (IHn u n l ON) as (p & r & u' & path & -> & El & Ip & F & G).
      exists p, r, u', path. repeat split; auto. cbn [words]. apply in_or_app. now right.
Qed.

Lemma trie_walk_ext : forall t u n p r u' n', trie_ok t = true -> ~ starts letter r ->
  trie_walk t u n p = (u', n', []) -> trie_walk t u n (p ++ r) = (u', n', r).
Proof.
  induction t as [| alts v child IHc next IHn]; intros u n p r u' n' OK NR E; cbn [trie_walk] in *.
  - inversion E; subst. reflexivity.
  - cbn [trie_ok] in OK. rewrite !andb_true_iff in OK. destruct OK as ((OA & OC) & ON).
    assert (NL : forall x, ~ letter x -> existsb (N.eqb x) alts = false).
    { intros x Hx. destruct (existsb (N.eqb x) alts) eqn:X; [| reflexivity]. exfalso.
      apply existsb_exists in X. destruct X as (a & Ia & Ea). apply N.eqb_eq in Ea. subst a.
      rewrite forallb_forall in OA. apply OA in Ia. apply Hx. now apply is_letter_spec. }
    destruct p as [| c p].
    + rewrite peek_nil, NL in E by (unfold letter, upper, lower; lia). cbn [app].
      rewrite NL; [exact (IHn u n [] r u' n' ON NR E) |].
      intro L. apply NR. apply peek_starts; [unfold letter, upper, lower; lia | exact L].
    + rewrite peek0 in E. cbn [app tl] in *. rewrite peek0.
      destruct (existsb (N.eqb c) alts).
      * exact (IHc _ (n + 1) p r u' n' OC NR E).
      * exact (IHn u n (c :: p) r u' n' ON NR E).
Qed.

(* the unit's name in the specification table *)
Definition name_of (u : unit_t) : list N :=
  match find (fun p => unit_eqb (fst p) u) css_unit_names with Some (_, s) => chars s | None => [] end.
Lemma unit_eqb_eq : forall a b, unit_eqb a b = true <-> a = b.
Proof.
  intros a b. unfold unit_eqb. rewrite N.eqb_eq. split; [apply unit_code_inj | now intros ->].
Qed.
Lemma name_of_in : forall u s, In (u, s) css_unit_names -> name_of u = chars s.
Proof.
  intros u s H.
  assert (F : forallb (fun p => if list_eq_dec N.eq_dec (name_of (fst p)) (chars (snd p)) then true else false) css_unit_names = true)
    by (vm_compute; reflexivity).
  rewrite forallb_forall in F. specialize (F _ H). cbn [fst snd] in F.
  destruct (list_eq_dec N.eq_dec (name_of u) (chars s)); [assumption | discriminate].
Qed.

Definition alts_same (alts : list N) : bool := forallb (fun c => to_ascii_lowercase c =? to_ascii_lowercase (hd 0 alts)) alts.
Definition path_lower (path : list (list N)) : list N := map (fun alts => to_ascii_lowercase (hd 0 alts)) path.
Lemma path_lower_spec : forall p path, Forall2 (fun c alts => In c alts) p path -> forallb alts_same path = true ->
  lower_text p = path_lower path.
Proof.
  intros p path F. induction F as [| c alts p path I F IH]; intro A; [reflexivity |].
  cbn [forallb] in A. apply andb_true_iff in A. destruct A as (A1 & A2). cbn. f_equal; [| now apply IH].
  unfold alts_same in A1. rewrite forallb_forall in A1. apply A1 in I. now apply N.eqb_eq.
Qed.
Definition text_in (p : list N) (ls : list (list N)) : bool := existsb (fun x => if list_eq_dec N.eq_dec p x then true else false) ls.

Definition word_ok (pw : list (list N) * unit_t) : bool :=
  forallb alts_same (fst pw) &&
  (unit_eqb (snd pw) U_Unknown
   || (if list_eq_dec N.eq_dec (path_lower (fst pw)) (name_of (snd pw)) then true else false)
   || (unit_eqb (snd pw) U_S && text_in (path_lower (fst pw)) sv_fragments)).
Lemma words_ok : forallb word_ok (words dim_trie U_Unknown) = true.
Proof. vm_compute. reflexivity. Qed.

Lemma text_in_spec : forall p ls, text_in p ls = true <-> In p ls.
Proof.
  intros. unfold text_in. rewrite existsb_exists. split.
  - intros (x & I & E). destruct (list_eq_dec N.eq_dec p x); [now subst | discriminate].
  - intro I. exists p. split; [assumption |]. destruct (list_eq_dec N.eq_dec p p); congruence.
Qed.

Lemma trie_sound : forall l, exists p r u, trie_walk dim_trie U_Unknown 0 l = (u, N.of_nat (List.length p), r) /\ l = p ++ r /\ Forall letter p /\
  (u <> U_Unknown -> lower_text p = name_of u \/ (u = U_S /\ In (lower_text p) sv_fragments)).
Proof.
  intro l. destruct (trie_walk_words dim_trie U_Unknown 0 l dim_trie_ok) as (p & r & u & path & E & El & Ip & F & G).
  exists p, r, u. rewrite E. repeat split; auto. intro NU.
  pose proof words_ok as W. rewrite forallb_forall in W. specialize (W _ Ip). unfold word_ok in W. cbn [fst snd] in W.
  apply andb_true_iff in W. destruct W as (W1 & W2). rewrite (path_lower_spec p path F W1).
  rewrite !orb_true_iff in W2. destruct W2 as [[W2 | W2] | W2].
  - apply unit_eqb_eq in W2. congruence.
  - left. destruct (list_eq_dec N.eq_dec (path_lower path) (name_of u)); [assumption | discriminate].
  - right. apply andb_true_iff in W2. destruct W2 as (A & B). apply unit_eqb_eq in A. apply text_in_spec in B. auto.
Qed.

(* all upper/lower spellings of a lower-case text *)
Fixpoint all_cases (w : list N) : list (list N) :=
  match w with
  | [] => [[]]
  | c :: w' => let rest := all_cases w' in
               map (cons c) rest ++ (if in_range 97 122 c then map (cons (c - 32)) rest else [])
  end.
Lemma all_cases_spec : forall p w, lower_text p = w -> In p (all_cases w).
Proof.
  induction p as [| c p IH]; intros w E; subst; [now left |].
  cbn [lower_text map all_cases]. fold (lower_text p). specialize (IH _ eq_refl).
  unfold to_ascii_lowercase, is_ascii_upper. apply in_or_app.
  destruct ((65 <=? c) && (c <=? 90)) eqn:U.
  - right. unfold in_range. replace ((97 <=? c + 32) && (c + 32 <=? 122)) with true by lia.
    apply in_map_iff. exists p. split; [f_equal; lia | assumption].
  - left. apply in_map_iff. exists p. auto.
Qed.
Definition complete_ok (u : unit_t) : bool :=
  forallb (fun p => match p with
                    | 68 :: _ => true
                    | _ => match trie_walk dim_trie U_Unknown 0 p with (v, n, []) => unit_eqb u v && (n =? N.of_nat (List.length p)) | _ => false end
                    end) (all_cases (name_of u)).
Lemma trie_complete : forall u p r, u <> U_Unknown -> u <> U_Percent -> lower_text p = name_of u -> hd 0 p <> 68 -> ~ starts letter r ->
  trie_walk dim_trie U_Unknown 0 (p ++ r) = (u, N.of_nat (List.length p), r).
Proof.
  intros u p r NU NP E ND NR.
  assert (C : forallb complete_ok (filter (fun u => negb (unit_eqb u U_Unknown) && negb (unit_eqb u U_Percent)) all_units) = true) by (vm_compute; reflexivity).
  rewrite forallb_forall in C. specialize (C u).
  assert (IU : In u (filter (fun u => negb (unit_eqb u U_Unknown) && negb (unit_eqb u U_Percent)) all_units)).
  { apply filter_In. split; [apply all_units_complete |]. destruct u; congruence || reflexivity. }
  specialize (C IU). unfold complete_ok in C. rewrite forallb_forall in C. specialize (C p (all_cases_spec p _ E)).
  apply trie_walk_ext; [exact dim_trie_ok | assumption |].
  destruct p as [| c p].
  - destruct u; try congruence; discriminate E.
  - cbn [hd] in ND. assert (C' : match trie_walk dim_trie U_Unknown 0 (c :: p) with (v, n, []) => unit_eqb u v && (n =? N.of_nat (List.length (c :: p))) | _ => false end = true).
    { destruct c as [| q]; [exact C |]. do 7 (destruct q as [q | q |]; try exact C). all: exfalso; apply ND; reflexivity. }
    destruct (trie_walk dim_trie U_Unknown 0 (c :: p)) as ((v, n), [| x y]); [| discriminate].
    apply andb_true_iff in C'. destruct C' as (A & B). apply unit_eqb_eq in A. apply N.eqb_eq in B. now subst.
Qed.

Lemma letter_ident : forall c, letter c -> ident_cp c. Proof. unfold ident_cp, ident_start_cp. auto. Qed.
Lemma ident_pieces_letters : forall p l ps r, Forall letter p -> ident_pieces l ps r -> ident_pieces (p ++ l) (map Plain p ++ ps) r.
Proof. intros p l ps r F H. induction F; [exact H |]. cbn. apply ip_char; [now apply letter_ident | assumption]. Qed.
Lemma pieces_text_plain : forall p, pieces_text (map Plain p) = p.
Proof. induction p as [| c p IH]; [reflexivity |]. cbn. now f_equal. Qed.
Lemma pieces_text_app : forall a b, pieces_text (a ++ b) = pieces_text a ++ pieces_text b.
Proof. intros. unfold pieces_text. apply flat_map_app. Qed.
Lemma letters_ascii : forall p, Forall letter p -> Forall (fun c => c < 128) p.
Proof. intros p F. eapply Forall_impl; [| exact F]. unfold letter, upper, lower. lia. Qed.

(* the unit scanner *)
Lemma known_dimension_spec : forall l, exists u n ps r,
  consume_ident_sequence_finding_known_dimension l = (u, n, r) /\ ident_pieces l ps r /\
  (esc_ok l -> n = blen (pieces_text ps)) /\
  (u <> U_Unknown -> exists p, ps = map Plain p /\ Forall letter p /\
      (lower_text p = name_of u \/ (u = U_S /\ In (lower_text p) sv_fragments))) /\
  (forall p v, ps = map Plain p -> v <> U_Unknown -> v <> U_Percent -> lower_text p = name_of v -> hd 0 p <> 68 -> u = v).
Proof.
  intro l. unfold consume_ident_sequence_finding_known_dimension.
  destruct (trie_sound l) as (p & l1 & u & Etr & El & Fp & Su). rewrite Etr.
  destruct (consume_ident_spec l1) as (len & ps & r & -> & Hp & Hl & Hpos & Hz).
  assert (IP : ident_pieces l (map Plain p ++ ps) r) by (rewrite El; now apply ident_pieces_letters).
  assert (HL : esc_ok l -> N.of_nat (List.length p) + len = blen (pieces_text (map Plain p ++ ps))).
  { intro K. rewrite pieces_text_app, pieces_text_plain, blen_app, (blen_ascii p) by (now apply letters_ascii).
    rewrite Hl; [reflexivity |]. apply (esc_ok_suffix p). now rewrite <- El. }
  assert (HC : forall p0 v, map Plain p ++ ps = map Plain p0 -> v <> U_Unknown -> v <> U_Percent -> lower_text p0 = name_of v -> hd 0 p0 <> 68 ->
     ps = [] /\ u = v).
  { intros p0 v E1 NU NP E2 ND.
    assert (El0 : l = p0 ++ r).
    { apply ident_pieces_app in IP. rewrite E1, pieces_text_plain in IP. exact IP. }
    assert (NR : ~ starts letter r).
    { apply ident_pieces_stop in IP. destruct IP as (IP & _). intros (c & y & -> & Hc). apply IP. rewrite starts_cons. now apply letter_ident. }
    pose proof (trie_complete v p0 r NU NP E2 ND NR) as T. rewrite <- El0, Etr in T.
    inversion T; subst. split; [| reflexivity].
    apply ident_pieces_app in Hp. destruct ps as [| x ps]; [reflexivity |]. exfalso.
    assert (List.length p = List.length p0) by lia.
    apply (f_equal (@List.length piece)) in E1. rewrite app_length, !map_length in E1. cbn in E1. lia. }
  destruct (0 <? len) eqn:E0.
  - exists U_Unknown, (N.of_nat (List.length p) + len), (map Plain p ++ ps), r. repeat split; auto; [congruence |].
    intros p0 v E1 NU NP E2 ND. destruct (HC p0 v E1 NU NP E2 ND) as (-> & _). rewrite Hz in E0 by reflexivity. discriminate.
  - assert (ps = []) by (destruct ps; [reflexivity |]; assert (0 < len) by (apply Hpos; discriminate); lia).
    subst ps. rewrite Hz in HL by reflexivity. rewrite app_nil_r in *.
    exists u, (N.of_nat (List.length p)), (map Plain p), r.
    split; [reflexivity |]. split; [assumption |]. split; [intro K; rewrite <- HL by assumption; lia |]. split.
    + intro NU. exists p. auto.
    + intros p0 v E1 NU NP E2 ND. exact (proj2 (HC p0 v E1 NU NP E2 ND)).
Qed.

Lemma name_len : forall u, blen (name_of u) = unit_len u.
Proof. destruct u; vm_compute; reflexivity. Qed.
Lemma lower_text_len : forall p, List.length (lower_text p) = List.length p.
Proof. intro. unfold lower_text. apply map_length. Qed.
Lemma name_ascii : forall u, Forall (fun c => c < 128) (name_of u).
Proof.
  intro u. assert (F : forallb (fun u => forallb (fun c => c <? 128) (name_of u)) all_units = true) by (vm_compute; reflexivity).
  rewrite forallb_forall in F. specialize (F u (all_units_complete u)). apply Forall_forall. intros c I.
  rewrite forallb_forall in F. apply F in I. lia.
Qed.

(* would_start_ident, for text without NUL at the start of its ident candidates, is the scanner's three-character test *)
Lemma start_sequence_sound : forall l, is_ident_start_sequence (peek_nth l 0) (peek_nth l 1) (peek_nth l 2) = true -> would_start_ident l.
Proof.
  intros l H. unfold is_ident_start_sequence in H. destruct l as [| c l]; [discriminate |]. rewrite peek0, peek1, peek2 in H.
  destruct (c =? 45) eqn:E.
  - right. right. exists l. split; [f_equal; lia |]. rewrite !orb_true_iff in H. destruct H as [[H | H] | H].
    + right. left. apply peek_starts; [lia |]. symmetry. lia.
    + left. destruct l as [| d l]; [discriminate |]. rewrite starts_cons. apply is_ident_start_spec in H. tauto.
    + right. right. apply starts_escape_peek. split; [intros ->; discriminate | exact H].
  - rewrite orb_true_iff in H. destruct H as [H | H].
    + left. rewrite starts_cons. apply is_ident_start_spec in H. tauto.
    + right. left. apply starts_escape_peek. split; [discriminate | exact H].
Qed.
Lemma start_sequence_complete : forall l, ~ In 0 l -> would_start_ident l ->
  is_ident_start_sequence (peek_nth l 0) (peek_nth l 1) (peek_nth l 2) = true.
Proof.
  intros l NZ H. unfold is_ident_start_sequence.
  assert (IS : forall c r, ident_start_cp c -> ~ In 0 (c :: r) -> is_ident_start c = true).
  { intros c r A B. apply is_ident_start_spec. split; [assumption |]. intros ->. apply B. now left. }
  destruct H as [(c & r & -> & H) | [H | (r & -> & H)]].
  - rewrite peek0. replace (c =? 45) with false by (unfold ident_start_cp, letter, upper, lower, non_ascii_ident in H; lia).
    now rewrite (IS c r).
  - destruct l as [| c l]; [apply starts_escape_peek in H; destruct H; congruence |].
    rewrite peek0. pose proof (starts_escape_92 _ _ H). subst c. change (92 =? 45) with false. cbv iota.
    apply starts_escape_peek in H. destruct H as (_ & H). rewrite peek0 in H. now rewrite H, orb_true_r.
  - rewrite peek0, peek1, peek2. change (45 =? 45) with true. cbv iota. destruct H as [(c & r' & -> & H) | [(c & r' & -> & <-) | H]].
    + rewrite peek0. rewrite (IS c r'); [| assumption | intro X; apply NZ; now right]. now rewrite !orb_true_r.
    + rewrite peek0. reflexivity.
    + apply starts_escape_peek in H. destruct H as (_ & H). now rewrite H, orb_true_r.
Qed.
Lemma number_start_spec : forall l, is_number_start l = true <-> would_start_number l.
Proof.
  intro l. unfold is_number_start, would_start_number.
  rewrite !orb_true_iff, !andb_true_iff, !orb_true_iff, !andb_true_iff, !is_digit_spec, is_sign_spec, !N.eqb_eq.
  assert (D0 : ~ digit 0) by (unfold digit; lia).
  split.
  - intros [[H | (Hs & H)] | (H1 & H2)].
    + exists []. split; [now left |]. exists l. split; [reflexivity |]. left. now apply peek_starts.
    + destruct l as [| c l]; [rewrite peek_nil in Hs; unfold sign in Hs; lia |]. rewrite peek0, peek1, ?peek2 in *.
      exists [c]. split; [unfold sign in Hs; unfold opt_sign; destruct Hs as [-> | ->]; auto |].
      exists l. split; [reflexivity |]. destruct H as [H | (H1 & H2)].
      * left. now apply peek_starts.
      * right. destruct l as [| d l]; [rewrite peek_nil in H1; lia |]. rewrite peek0 in H1. rewrite peek1 in H2.
        exists l. subst. split; [reflexivity | now apply peek_starts].
    + exists []. split; [now left |]. exists l. split; [reflexivity |]. right.
      destruct l as [| d l]; [rewrite peek_nil in H1; lia |]. rewrite peek0 in H1. rewrite peek1 in H2.
      exists l. subst. split; [reflexivity | now apply peek_starts].
  - intros (s & Hs & r & -> & H).
    assert (HP : forall r, (starts digit r \/ (exists r', r = 46 :: r' /\ starts digit r')) ->
       digit (peek_nth r 0) \/ (peek_nth r 0 = 46 /\ digit (peek_nth r 1))).
    { clear. intros r [H | (r' & -> & H)]; [left; apply peek_starts; [unfold digit; lia | assumption] |].
      right. split; [reflexivity |]. rewrite peek1. apply peek_starts; [unfold digit; lia | assumption]. }
    specialize (HP r H). destruct Hs as [-> | [-> | ->]]; cbn [app]; [tauto | |];
      left; right; rewrite peek0, peek1, peek2; unfold sign; tauto.
Qed.

Lemma take_number : forall p r, css_number p -> take_bytes (blen p) (p ++ r) = Some p /\ skipn (N.to_nat (blen p)) (p ++ r) = r.
Proof.
  intros p r H. split; [apply take_bytes_app |].
  rewrite blen_ascii by (now apply css_number_ascii). rewrite Nat2N.id, skipn_app, skipn_all, Nat.sub_diag. reflexivity.
Qed.

(* the numeric token *)
Inductive numeric_view (l : list N) : token -> list N -> Prop :=
  | nv_number : forall p r fl v, longest_number l p r -> (fl = true <-> float_text p) -> v = parse_f32 p ->
      ~ starts (eq 37) r -> is_ident_start_sequence (peek_nth r 0) (peek_nth r 1) (peek_nth r 2) = false ->
      numeric_view l (new_number fl (is_sign (peek_nth l 0)) (blen p) v) r
  | nv_percent : forall p r fl v, longest_number l p (37 :: r) -> (fl = true <-> float_text p) -> v = parse_f32 p ->
      numeric_view l (new_dimension fl (is_sign (peek_nth l 0)) (blen p) 1 v U_Percent) r
  | nv_dimension : forall p r1 fl v u n ps r, longest_number l p r1 -> (fl = true <-> float_text p) -> v = parse_f32 p ->
      is_ident_start_sequence (peek_nth r1 0) (peek_nth r1 1) (peek_nth r1 2) = true ->
      ident_pieces r1 ps r -> (esc_ok r1 -> n = blen (pieces_text ps)) ->
      (u <> U_Unknown -> exists q, ps = map Plain q /\ Forall letter q /\ (lower_text q = name_of u \/ (u = U_S /\ In (lower_text q) sv_fragments))) ->
      (forall q w, ps = map Plain q -> w <> U_Unknown -> w <> U_Percent -> lower_text q = name_of w -> hd 0 q <> 68 -> u = w) ->
      numeric_view l (new_dimension fl (is_sign (peek_nth l 0)) (blen p) n v u) r.

Lemma consume_numeric_spec : forall l, is_number_start l = true -> exists t r, consume_numeric_token l = Some (t, r) /\ numeric_view l t r.
Proof.
  intros l H. unfold consume_numeric_token.
  destruct (number_extent_parts l H) as (s & i & fr & x & r & -> & NP).
  pose proof (parts_longest _ _ _ _ _ _ NP) as LN. pose proof (float_text_parts _ _ _ _ _ _ NP) as FT.
  remember (s ++ i ++ fr ++ x) as p. remember (has_dot_or_exp fr x) as fl.
  destruct LN as (El & CN & MX). assert (LN : longest_number l p r) by (split; auto).
  destruct (take_number p r CN) as (T1 & T2). rewrite <- El in T1, T2. rewrite T1, T2.
  destruct (peek_nth r 0 =? 37) eqn:EP.
  - destruct r as [| c r]; [discriminate |]. rewrite peek0 in EP. assert (c = 37) by lia. subst c.
    eexists _, _. split; [reflexivity |]. cbn [tl]. econstructor; eauto.
  - destruct (is_ident_start_sequence (peek_nth r 0) (peek_nth r 1) (peek_nth r 2)) eqn:ES.
    + destruct (known_dimension_spec r) as (u & n & ps & r' & -> & A & B & C & D).
      eexists _, _. split; [reflexivity |]. eapply nv_dimension; eauto.
    + eexists _, _. split; [reflexivity |]. econstructor; eauto.
      rewrite <- peek_starts by lia. lia.
Qed.
