(* Framing: proofs for C34. *)
From Coq Require Import ZifyBool ZifyNat ZifyN.
From Coq Require Import String List.
From Verif Require Import LspFrame SpecLspFrame.
Open Scope N_scope.
Open Scope list_scope.
Ltac Zify.zify_post_hook ::= Z.div_mod_to_equations.

Lemma ends_with_spec : forall s l, ends_with s l = true <-> exists p, l = p ++ s.
Proof.
  intros s l. induction l as [| b r IH]; cbn [ends_with].
  - destruct (list_eq_dec N.eq_dec [] s) as [<- | N]; split; try easy; [now exists [] |]. intros [p Q]. destruct p; [cbn in Q; congruence | discriminate].
  - destruct (list_eq_dec N.eq_dec (b :: r) s) as [<- | N]; [split; [now exists [] | easy] |]. rewrite IH. split.
    + intros [p ->]. now exists (b :: p).
    + intros [p Q]. destruct p as [| c p]; [cbn in Q; congruence |]. injection Q as <- ->. now exists p.
Qed.

Lemma take_line_spec : forall r, (exists a, fst (take_line r) = a ++ [10] /\ ~ In 10 a /\ r = a ++ 10 :: snd (take_line r)) \/
  (snd (take_line r) = [] /\ fst (take_line r) = r /\ ~ In 10 r).
Proof.
  induction r as [| b r IH]; cbn [take_line]; [right; cbn; tauto |]. destruct (b =? 10) eqn:B.
  - apply N.eqb_eq in B. subst b. left. exists []. cbn. tauto.
  - apply N.eqb_neq in B. destruct IH as [(a & E1 & E2 & E3) | (E1 & E2 & E3)]; cbn [fst snd].
    + left. exists (b :: a). rewrite E1. split; [reflexivity |]. split; [cbn; intuition congruence |]. cbn. now rewrite <- E3.
    + right. rewrite E1, E2. split; [reflexivity |]. split; [reflexivity |]. cbn. intuition congruence.
Qed.
Lemma take_line_lf : forall a r, ~ In 10 a -> take_line (a ++ 10 :: r) = (a ++ [10], r).
Proof.
  induction a as [| b a IH]; intros r N; cbn [take_line app]; [reflexivity |]. destruct (b =? 10) eqn:B; [apply N.eqb_eq in B; subst; cbn in N; tauto |].
  rewrite IH by (cbn in N; tauto). reflexivity.
Qed.

(* the header loop takes a prefix of the stream, and only looks at that prefix *)
Lemma header_loop_prefix : forall n r buf h r', header_loop n r buf = Some (inr (h, r')) ->
  (exists a, r = a ++ r' /\ h = buf ++ a /\ a <> []) /\ ends_with CRLF2 h = true /\ forall m s, (n <= m)%nat -> header_loop m (r ++ s) buf = Some (inr (h, r' ++ s)).
Proof.
  induction n as [| n IH]; intros r buf h r' E; cbn [header_loop] in E; [discriminate |].
  destruct (take_line r) as [line r1] eqn:T. destruct (take_line_spec r) as [(a & E1 & E2 & E3) | (E1 & E2 & E3)]; rewrite T in *; cbn [fst snd] in *.
  - subst line. assert (E' : (if negb (utf8_ok (a ++ [10])) then Some (inl FE_Utf8) else if ends_with CRLF2 (buf ++ a ++ [10]) then Some (inr (buf ++ a ++ [10], r1)) else header_loop n r1 (buf ++ a ++ [10])) = Some (inr (h, r'))) by (destruct a; exact E). clear E. rename E' into E.
    assert (Step : forall m s, header_loop (S m) (r ++ s) buf = if negb (utf8_ok (a ++ [10])) then Some (inl FE_Utf8) else if ends_with CRLF2 (buf ++ a ++ [10]) then Some (inr (buf ++ a ++ [10], r1 ++ s)) else header_loop m (r1 ++ s) (buf ++ a ++ [10])).
    { intros m s. cbn [header_loop]. rewrite E3, <- app_assoc, <- app_comm_cons, take_line_lf by assumption. destruct a; reflexivity. }
    destruct (negb (utf8_ok (a ++ [10]))) eqn:U; [discriminate |]. destruct (ends_with CRLF2 (buf ++ a ++ [10])) eqn:W.
    + injection E as <- <-. split; [exists (a ++ [10]); rewrite <- app_assoc; split; [exact E3 | split; [reflexivity | now destruct a]] |]. split; [exact W |]. intros [| m] s L; [lia |]. now rewrite Step.
    + destruct (IH _ _ _ _ E) as ((a' & Q1 & Q2 & Q3) & Q4 & Q5). split.
      * exists ((a ++ [10]) ++ a'). split; [rewrite <- !app_assoc; cbn [app]; rewrite <- Q1; exact E3 |]. split; [rewrite Q2; now rewrite !app_assoc | now destruct a].
      * split; [exact Q4 |]. intros [| m] s L; [lia |]. rewrite Step. apply Q5. lia.
  - subst r1. destruct line as [| b line]; [discriminate |]. destruct (negb (utf8_ok (b :: line))); [discriminate |]. destruct (ends_with CRLF2 (buf ++ b :: line)) eqn:W.
    + exfalso. apply ends_with_spec in W. destruct W as (p & Q). apply E3. rewrite <- E2. assert (I : In 10 (b :: line)); [| exact I].
      assert (Z : last (buf ++ b :: line) 0 = 10) by (rewrite Q; unfold CRLF2; change (p ++ [13; 10; 13; 10]) with (p ++ [13; 10; 13] ++ [10]); rewrite app_assoc; apply last_last).
      destruct (exists_last (l := b :: line)) as (l0 & x & X); [discriminate |]. rewrite X in Z. rewrite app_assoc, last_last in Z. subst x. rewrite X. apply in_app_iff. right. now left.
    + destruct n; cbn [header_loop take_line] in E; discriminate.
Qed.

(* decimal numbers *)
Lemma dec_digits_none : forall l, fold_left (fun a b => match a with None => None | Some n => if is_ascii_digit b then Some (n * 10 + (b - 48)) else None end) l None = None.
Proof. induction l; [reflexivity | exact IHl]. Qed.
Lemma dec_digits_acc : forall l n, Forall (fun b => 48 <= b <= 57) l ->
  fold_left (fun a b => match a with None => None | Some n => if is_ascii_digit b then Some (n * 10 + (b - 48)) else None end) l (Some n) = Some (n * 10 ^ N.of_nat (length l) + value_of l).
Proof.
  induction l as [| b l IH]; intros n F; cbn [fold_left value_of length]; [f_equal; change (10 ^ N.of_nat 0) with 1; lia |]. inversion F as [| ? ? Hb F']; subst.
  assert (B : is_ascii_digit b = true) by (unfold is_ascii_digit; lia). rewrite B, IH by exact F'. f_equal. rewrite Nat2N.inj_succ, N.pow_succ_r by lia. lia.
Qed.
Lemma parse_usize_spec : forall ds, digits ds -> value_of ds < USIZE -> parse_usize ds = Some (value_of ds).
Proof.
  intros ds [NE F] L. unfold parse_usize. destruct ds as [| b ds]; [easy |]. inversion F as [| ? ? Hb F']; subst.
  assert (D : dec_digits (b :: ds) = Some (value_of (b :: ds))).
  { unfold dec_digits. rewrite dec_digits_acc by exact F. reflexivity. }
  assert (B : (value_of (b :: ds) <? USIZE) = true) by lia. assert (B43 : (b =? 43) = false) by lia.
  destruct ds as [| c ds]; [now rewrite D, B |]. rewrite B43. now rewrite D, B.
Qed.
Lemma value_of_app : forall l b, value_of (l ++ [b]) = value_of l * 10 + (b - 48).
Proof.
  induction l as [| c l IH]; intro b; cbn [app value_of length]; [change (10 ^ N.of_nat 0) with 1; lia |]. rewrite IH, app_length. cbn [length]. rewrite Nat.add_1_r, Nat2N.inj_succ, N.pow_succ_r by lia. lia.
Qed.
Lemma dec_fuel_spec : forall n x, (N.to_nat (N.log2 x) < n)%nat -> digits (dec_fuel n x) /\ value_of (dec_fuel n x) = x.
Proof.
  induction n as [| n IH]; intros x L; [lia |]. cbn [dec_fuel]. destruct (x <? 10) eqn:B.
  - split; [split; [discriminate | constructor; [lia | constructor]] |]. cbn [value_of length]. change (10 ^ N.of_nat 0) with 1. lia.
  - assert (L' : (N.to_nat (N.log2 (x / 10)) < n)%nat).
    { assert (Q : N.log2 (x / 10) < N.log2 x); [| lia]. apply N.lt_le_trans with (N.succ (N.log2 (x / 10))); [lia |]. rewrite <- N.log2_double by lia. apply N.log2_le_mono. lia. }
    destruct (IH _ L') as [[NE F] V]. split; [split; [now destruct (dec_fuel n (x / 10)) |] |].
    + apply Forall_app. split; [exact F |]. constructor; [| constructor]. assert (x mod 10 < 10) by (apply N.mod_lt; lia). lia.
    + rewrite value_of_app, V. assert (x mod 10 < 10) by (apply N.mod_lt; lia). lia.
Qed.
Lemma dec_spec : forall x, digits (dec x) /\ value_of (dec x) = x.
Proof. intro x. apply dec_fuel_spec. lia. Qed.

(* scanning a header *)
Lemma run_all : forall p a r, Forall (fun b => p b = true) a -> match r with [] => True | b :: _ => p b = false end -> run p (a ++ r) = (a, r).
Proof.
  intros p a r F H. induction F as [| b a Hb F IH]; cbn [app run].
  - destruct r as [| b r]; [reflexivity |]. cbn [run]. now rewrite H.
  - rewrite Hb, IH. reflexivity.
Qed.
Lemma lower_name_token : forall b, name_token (to_ascii_lowercase b) = true -> name_token b = true.
Proof. intros b H. unfold to_ascii_lowercase in H. destruct (is_ascii_upper b) eqn:U; [| exact H]. unfold is_ascii_upper in U. unfold name_token, between. lia. Qed.
Lemma spelled_tokens : forall name b, Forall (fun x => name_token x = true) name -> spelled name b -> Forall (fun x => name_token x = true) b.
Proof. intros name b F S. unfold spelled in S. subst name. induction b as [| x b IH]; [constructor |]. inversion F; subst. constructor; [now apply lower_name_token | now apply IH]. Qed.
Lemma trim_end_id : forall v, Forall (fun b => 33 <= b <= 126) v -> trim_end v = v.
Proof.
  intros v F. unfold trim_end. apply Forall_rev in F. destruct (rev v) as [| b w] eqn:R.
  - apply (f_equal (@rev N)) in R. rewrite rev_involutive in R. now rewrite R.
  - cbn [run]. inversion F; subst. assert (B : is_blank b = false) by (unfold is_blank; lia). rewrite B. cbn [snd]. rewrite <- R. apply rev_involutive.
Qed.

(* one header line, in any case, as the reader sees it *)
Definition header_named (name : bytes) (v : bytes) (h : bytes) : Prop :=
  exists n blanks, h = n ++ 58 :: blanks ++ v ++ [13; 10] /\ spelled name n /\ Forall (fun b => b = 32 \/ b = 9) blanks /\ Forall (fun b => 33 <= b <= 126) v.
Lemma parse_header : forall slots name v h l hs rest, name <> [] -> Forall (fun x => name_token x = true) name -> header_named name v h -> parse_headers slots l = Some (hs, rest) ->
  exists n, spelled name n /\ parse_headers (S slots) (h ++ l) = Some ((n, v) :: hs, rest).
Proof.
  intros slots name v h l hs rest NE Nt (n & blanks & -> & Sp & Bl & Vt) P. exists n. split; [exact Sp |]. rewrite <- app_assoc, <- app_comm_cons, <- !app_assoc.
  pose proof (spelled_tokens _ _ Nt Sp) as Nt'. assert (NE' : n <> []) by (intros ->; unfold spelled in Sp; cbn in Sp; congruence).
  destruct n as [| x n]; [easy |]. cbn [parse_headers]. inversion Nt' as [| ? ? Hx Ht]; subst.
  assert (E : eol ((x :: n) ++ 58 :: blanks ++ v ++ [13; 10] ++ l) = None).
  { cbn [eol app]. destruct (x =? 10) eqn:Bx; [apply N.eqb_eq in Bx; subst x; discriminate |]. destruct (x =? 13) eqn:By; [apply N.eqb_eq in By; subst x; discriminate | reflexivity]. }
  rewrite E. rewrite run_all by (auto; reflexivity). change (58 =? 58) with true. cbn match.
  assert (R1 : run is_blank (blanks ++ v ++ [13; 10] ++ l) = (blanks, v ++ [13; 10] ++ l)).
  { apply run_all; [eapply Forall_impl; [| exact Bl]; cbv beta; unfold is_blank; lia |]. destruct v as [| y v]; [reflexivity |]. inversion Vt; subst. cbn [app]. unfold is_blank. lia. }
  rewrite R1. cbn [snd]. rewrite run_all; [| eapply Forall_impl; [| exact Vt]; cbv beta; unfold value_token, between; lia | reflexivity].
  cbn [app eol N.eqb Pos.eqb]. rewrite P, trim_end_id by exact Vt. reflexivity.
Qed.

(* the header loop on whole lines *)
Definition line_body (y : bytes) : Prop := y <> [] /\ ~ In 10 y.
Lemma not_end : forall buf y, line_body y -> ends_with CRLF2 (buf ++ y ++ [13; 10]) = false.
Proof.
  intros buf y [NE NI]. destruct (ends_with CRLF2 (buf ++ y ++ [13; 10])) eqn:W; [| reflexivity]. exfalso. apply ends_with_spec in W. destruct W as [p Q].
  unfold CRLF2 in Q. change (p ++ [13; 10; 13; 10]) with (p ++ [13; 10] ++ [13; 10]) in Q. rewrite !app_assoc in Q. apply app_inv_tail in Q.
  destruct (exists_last NE) as (y0 & b & ->). apply NI. rewrite app_assoc in Q. change (p ++ [13; 10]) with (p ++ [13] ++ [10]) in Q. rewrite (app_assoc p) in Q. apply app_inj_tail in Q. destruct Q as [_ ->].
  apply in_app_iff. right. now left.
Qed.
Lemma header_loop_line : forall n buf y r, line_body y -> utf8_ok (y ++ [13; 10]) = true -> header_loop (S n) (y ++ [13; 10] ++ r) buf = header_loop n r (buf ++ y ++ [13; 10]).
Proof.
  intros n buf y r L U. cbn [header_loop]. change (y ++ [13; 10] ++ r) with (y ++ [13] ++ 10 :: r). rewrite app_assoc, take_line_lf; [| rewrite in_app_iff; cbn; destruct L; intuition congruence].
  rewrite <- app_assoc. cbn [app]. pose proof (not_end buf y L) as NE. destruct (y ++ [13; 10]) as [| b l] eqn:Q; [destruct y; discriminate |]. rewrite U, NE. reflexivity.
Qed.
Lemma header_loop_blank : forall n buf r, ends_with CRLF2 (buf ++ [13; 10]) = true -> header_loop (S n) ([13; 10] ++ r) buf = Some (inr (buf ++ [13; 10], r)).
Proof. intros n buf r W. cbn [header_loop app take_line N.eqb Pos.eqb fst snd]. now rewrite W. Qed.
Lemma ascii_utf8 : forall l, Forall (fun b => b < 128) l -> utf8_ok l = true.
Proof. intros l F. induction F as [| b l Hb F IH]; [reflexivity |]. cbn [utf8_ok]. assert (B : (b <? 128) = true) by lia. now rewrite B. Qed.
Lemma name_token_ascii : forall b, name_token b = true -> b < 128 /\ b <> 10.
Proof. intros b H. unfold name_token, between, is_ascii_digit in H. cbn [existsb] in H. lia. Qed.
Lemma header_is_line : forall name v h, name <> [] -> Forall (fun x => name_token x = true) name -> header_named name v h -> exists y, h = y ++ [13; 10] /\ line_body y /\ utf8_ok (y ++ [13; 10]) = true.
Proof.
  intros name v h NE Nt (n & blanks & -> & Sp & Bl & Vt). pose proof (spelled_tokens _ _ Nt Sp) as Nt'. exists (n ++ 58 :: blanks ++ v).
  split; [rewrite <- app_assoc, <- app_comm_cons, <- app_assoc; reflexivity |].
  assert (A : Forall (fun b => b < 128 /\ b <> 10) (n ++ 58 :: blanks ++ v)).
  { apply Forall_app. split; [eapply Forall_impl; [| exact Nt']; apply name_token_ascii |]. constructor; [lia |]. apply Forall_app. split; [eapply Forall_impl; [| exact Bl] | eapply Forall_impl; [| exact Vt]]; cbv beta; lia. }
  split; [split; [now destruct n | intro I; rewrite Forall_forall in A; specialize (A _ I); lia] |]. apply ascii_utf8. apply Forall_app. split; [eapply Forall_impl; [| exact A]; cbv beta; lia |]. repeat constructor.
Qed.

Lemma same_name_spelled : forall name n, spelled name n -> same_name n name = true.
Proof. intros name n S. unfold same_name. rewrite S. now destruct (list_eq_dec N.eq_dec name name). Qed.
Lemma same_name_other : forall name n other, spelled name n -> name <> other -> same_name n other = false.
Proof. intros name n other S NE. unfold same_name. rewrite S. now destruct (list_eq_dec N.eq_dec name other). Qed.
Lemma digits_values : forall ds, digits ds -> Forall (fun b => 33 <= b <= 126) ds.
Proof. intros ds [_ F]. eapply Forall_impl; [| exact F]. cbv beta. lia. Qed.
Lemma digits_utf8 : forall ds, digits ds -> utf8_ok ds = true.
Proof. intros ds [_ F]. apply ascii_utf8. eapply Forall_impl; [| exact F]. cbv beta. lia. Qed.
Lemma length_named : forall n h, header_line (Some n) h -> exists ds, header_named CONTENT_LENGTH ds h /\ digits ds /\ value_of ds = n /\ n < USIZE.
Proof. intros n h H. remember (Some n) as o eqn:Q. destruct H as [name blanks ds S B D L |]; [| discriminate]. injection Q as <-. exists ds. split; [exists name, blanks; repeat split; auto; now apply digits_values | auto]. Qed.
Lemma type_named : forall h, header_line None h -> exists v, header_named CONTENT_TYPE v h.
Proof. intros h H. remember None as o eqn:Q. destruct H as [| name blanks v S B V]; [discriminate |]. exists v, name, blanks. auto. Qed.
Lemma cl_tokens : CONTENT_LENGTH <> [] /\ Forall (fun x => name_token x = true) CONTENT_LENGTH.
Proof. split; [discriminate | repeat constructor]. Qed.
Lemma ct_tokens : CONTENT_TYPE <> [] /\ Forall (fun x => name_token x = true) CONTENT_TYPE.
Proof. split; [discriminate | repeat constructor]. Qed.
Lemma firstn_body : forall n (body rest : bytes), n = N.of_nat (length body) -> firstn (N.to_nat n) (body ++ rest) = body /\ skipn (N.to_nat n) (body ++ rest) = rest.
Proof.
  intros n body rest ->. rewrite Nat2N.id. split.
  - rewrite firstn_app, firstn_all, Nat.sub_diag. cbn. apply app_nil_r.
  - rewrite skipn_app, skipn_all, Nat.sub_diag. reflexivity.
Qed.
Lemma frame_of_headers : forall (h : bytes) hs n (body rest : bytes) m, header_loop m (h ++ [13; 10] ++ body ++ rest) [] = Some (inr (h ++ [13; 10], body ++ rest)) -> (m <= S (length (h ++ [13%N; 10%N] ++ body ++ rest)))%nat ->
  parse_headers 2 (h ++ [13; 10]) = Some (hs, []) -> content_length hs 0 = inr n -> 0 < n -> n = N.of_nat (length body) -> read_frame (h ++ [13; 10] ++ body ++ rest) = FBody body rest.
Proof.
  intros h hs n body rest m H L P C Z E. unfold read_frame.
  assert (H' : header_loop (S (length (h ++ [13; 10] ++ body ++ rest))) (h ++ [13; 10] ++ body ++ rest) [] = Some (inr (h ++ [13; 10], body ++ rest))).
  { destruct (header_loop_prefix _ _ _ _ _ H) as (_ & _ & Mono). specialize (Mono _ [] L). now rewrite !app_nil_r in Mono. }
  rewrite H', P, C. assert (B : (n =? 0) = false) by lia. rewrite B. assert (B2 : (N.of_nat (length (body ++ rest)) <? n) = false) by (rewrite app_length; lia). rewrite B2.
  destruct (firstn_body n body rest E) as [-> ->]. reflexivity.
Qed.
Lemma parse_blank : forall slots, parse_headers slots [13; 10] = Some ([], []).
Proof. destruct slots; reflexivity. Qed.
Lemma ends_crlf2 : forall y, ends_with CRLF2 ((y ++ [13; 10]) ++ [13; 10]) = true.
Proof. intro y. apply ends_with_spec. exists y. now rewrite <- app_assoc. Qed.
Lemma read_accepts : forall n h body rest, header_block n h -> 0 < n -> n = N.of_nat (length body) -> read_frame (h ++ [13; 10] ++ body ++ rest) = FBody body rest.
Proof.
  intros n h body rest HB Z E. destruct cl_tokens as [N1 T1]. destruct ct_tokens as [N2 T2]. destruct HB as [n h Hl | n t h Ht Hl | n t h Ht Hl].
  - destruct (length_named _ _ Hl) as (ds & Hn & D & V & U). destruct (header_is_line _ _ _ N1 T1 Hn) as (y & -> & Lb & U8).
    destruct (parse_header 1 _ _ _ _ _ _ N1 T1 Hn (parse_blank 1)) as (nm & Sp & P).
    apply (frame_of_headers _ [(nm, ds)] n _ _ 2); auto.
    + rewrite <- app_assoc. rewrite header_loop_line by auto. apply header_loop_blank. apply ends_crlf2.
    + rewrite !app_length. cbn. lia.
    + cbn [content_length]. rewrite (same_name_spelled _ _ Sp), (digits_utf8 _ D), (parse_usize_spec _ D) by lia. cbn. now rewrite V.
  - destruct (length_named _ _ Hl) as (ds & Hn & D & V & U). destruct (type_named _ Ht) as (v & Hv).
    destruct (header_is_line _ _ _ N1 T1 Hn) as (y & -> & Lb & U8). destruct (header_is_line _ _ _ N2 T2 Hv) as (z & -> & Lb' & U8').
    destruct (parse_header 0 _ _ _ _ _ _ N1 T1 Hn (parse_blank 0)) as (nm & Sp & P). destruct (parse_header 1 _ _ _ _ _ _ N2 T2 Hv P) as (nm' & Sp' & P').
    apply (frame_of_headers _ [(nm', v); (nm, ds)] n _ _ 3); auto.
    + rewrite <- !app_assoc. rewrite header_loop_line by auto. rewrite header_loop_line by auto. rewrite header_loop_blank; [cbn [app]; rewrite <- !app_assoc; reflexivity |].
      cbn [app]. rewrite app_assoc. apply ends_crlf2.
    + rewrite !app_length. cbn. lia.
    + rewrite <- app_assoc. exact P'.
    + cbn [content_length]. rewrite (same_name_spelled _ _ Sp'), (same_name_other _ _ CONTENT_LENGTH Sp') by discriminate.
      rewrite (same_name_spelled _ _ Sp), (digits_utf8 _ D), (parse_usize_spec _ D) by lia. cbn. now rewrite V.
  - destruct (length_named _ _ Hl) as (ds & Hn & D & V & U). destruct (type_named _ Ht) as (v & Hv).
    destruct (header_is_line _ _ _ N1 T1 Hn) as (y & -> & Lb & U8). destruct (header_is_line _ _ _ N2 T2 Hv) as (z & -> & Lb' & U8').
    destruct (parse_header 0 _ _ _ _ _ _ N2 T2 Hv (parse_blank 0)) as (nm' & Sp' & P'). destruct (parse_header 1 _ _ _ _ _ _ N1 T1 Hn P') as (nm & Sp & P).
    apply (frame_of_headers _ [(nm, ds); (nm', v)] n _ _ 3); auto.
    + rewrite <- !app_assoc. rewrite header_loop_line by auto. rewrite header_loop_line by auto. rewrite header_loop_blank; [cbn [app]; rewrite <- !app_assoc; reflexivity |].
      cbn [app]. rewrite app_assoc. apply ends_crlf2.
    + rewrite !app_length. cbn. lia.
    + rewrite <- app_assoc. exact P.
    + cbn [content_length]. rewrite (same_name_spelled _ _ Sp), (digits_utf8 _ D), (parse_usize_spec _ D) by lia. cbn [negb].
      rewrite (same_name_spelled _ _ Sp'), (same_name_other _ _ CONTENT_LENGTH Sp') by discriminate. now rewrite V.
Qed.
Lemma write_frame_block : forall body rest, exists h, write_frame body ++ rest = h ++ [13; 10] ++ body ++ rest /\ (N.of_nat (length body) < USIZE -> header_block (N.of_nat (length body)) h) /\ (0 < length h)%nat.
Proof.
  intros body rest. destruct (dec_spec (N.of_nat (length body))) as [D V]. exists (chars "Content-Length"%string ++ 58 :: [32] ++ dec (N.of_nat (length body)) ++ [13; 10]).
  split; [unfold write_frame; cbn [chars app]; repeat (rewrite <- ?app_assoc; cbn [app]); reflexivity |]. split; [intro U | cbn; lia]. apply hb_length. rewrite <- V at 1. apply hl_length; [reflexivity | repeat constructor | exact D | lia].
Qed.
Lemma read_written : forall body rest, sendable body -> read_frame (write_frame body ++ rest) = FBody body rest.
Proof. intros body rest [NE U]. destruct (write_frame_block body rest) as (h & -> & HB & _). apply (read_accepts (N.of_nat (length body))); auto. destruct body; [easy | cbn; lia]. Qed.
Lemma read_stream_written : forall bodies n, Forall sendable bodies -> (length bodies < n)%nat -> read_stream n (flat_map write_frame bodies) = (bodies, Ended).
Proof.
  induction bodies as [| b bodies IH]; intros n F L; (destruct n as [| n]; [lia |]); cbn [read_stream flat_map]; [reflexivity |].
  inversion F as [| ? ? Fb F']; subst. rewrite read_written by exact Fb. cbn [length] in L. rewrite IH by (auto; lia). reflexivity.
Qed.
Lemma written_length : forall bodies, (length bodies <= length (flat_map write_frame bodies))%nat.
Proof. induction bodies as [| b bodies IH]; cbn [flat_map length]; [lia |]. rewrite app_length. assert (Lw : (0 < length (write_frame b))%nat) by (unfold write_frame; rewrite app_length; cbn; lia). lia. Qed.
Lemma round_trip : forall bodies, Forall sendable bodies -> read_all (flat_map write_frame bodies) = (bodies, Ended).
Proof. intros bodies F. apply read_stream_written; [exact F |]. pose proof (written_length bodies). lia. Qed.

(* what a successful read depends on, and takes *)
Lemma read_frame_body : forall r b rest, read_frame r = FBody b rest -> (exists head, r = head ++ b ++ rest /\ (exists p, head = p ++ CRLF2)) /\ forall s, read_frame (r ++ s) = FBody b (rest ++ s).
Proof.
  intros r b rest E. unfold read_frame in *. destruct (header_loop (S (length r)) r []) as [[e | [buf r1]] |] eqn:H; [discriminate | | discriminate].
  destruct (header_loop_prefix _ _ _ _ _ H) as ((a & Ea & Eb & _) & W & Mono). cbn [app] in Eb. subst a.
  destruct (parse_headers 2 buf) as [[hs [| x y]] |] eqn:P; [| discriminate | discriminate]. destruct (content_length hs 0) as [e | n] eqn:C; [discriminate |].
  destruct (n =? 0) eqn:B; [discriminate |]. destruct (N.of_nat (length r1) <? n) eqn:B2; [discriminate |]. injection E as Hb Hr. split.
  - exists buf. split; [rewrite <- Hb, <- Hr, firstn_skipn; exact Ea | now apply ends_with_spec].
  - intro s. rewrite (Mono (S (length (r ++ s))) s) by (rewrite app_length; lia). rewrite P, C, B. assert (B3 : (N.of_nat (length (r1 ++ s)) <? n) = false) by (rewrite app_length; lia). rewrite B3.
    rewrite <- Hb, <- Hr. f_equal; [rewrite firstn_app | rewrite skipn_app]; replace (N.to_nat n - length r1)%nat with 0%nat by lia; cbn; [apply app_nil_r | reflexivity].
Qed.
Lemma truncated : forall body pre suf, sendable body -> write_frame body = pre ++ suf -> suf <> [] -> forall b rest, read_frame pre <> FBody b rest.
Proof.
  intros body pre suf S E NE b rest R. destruct (read_frame_body _ _ _ R) as [_ M]. specialize (M suf). rewrite <- E in M.
  pose proof (read_written body [] S) as Q. rewrite app_nil_r in Q. rewrite Q in M. injection M as _ Z. destruct rest; cbn in Z; [congruence | discriminate].
Qed.
(* a stream cut anywhere yields the messages written whole before the cut, and nothing else *)
Lemma cut_stream : forall bodies pre suf, Forall sendable bodies -> flat_map write_frame bodies = pre ++ suf -> forall n, (length pre < n)%nat ->
  exists whole rest cut, bodies = whole ++ rest /\ pre = flat_map write_frame whole ++ cut /\ fst (read_stream n pre) = whole /\ (cut = [] \/ exists b more, rest = b :: more /\ exists tl, write_frame b = cut ++ tl /\ tl <> []).
Proof.
  induction bodies as [| b bodies IH]; intros pre suf F E n L.
  - destruct pre; [| discriminate]. exists [], [], []. destruct n; [cbn in L; lia |]. cbn. repeat split; auto.
  - inversion F as [| ? ? Fb F']; subst. cbn [flat_map] in E. destruct n as [| n]; [lia |].
    destruct (Nat.le_gt_cases (length (write_frame b)) (length pre)) as [Le | Lt].
    + assert (P : exists pre', pre = write_frame b ++ pre' /\ flat_map write_frame bodies = pre' ++ suf).
      { exists (skipn (length (write_frame b)) pre). assert (Q := f_equal (firstn (length (write_frame b))) E). rewrite firstn_app, firstn_all, Nat.sub_diag, firstn_O, app_nil_r in Q.
        rewrite firstn_app in Q. replace (length (write_frame b) - length pre)%nat with 0%nat in Q by lia. rewrite firstn_O, app_nil_r in Q.
        assert (Q2 : pre = write_frame b ++ skipn (length (write_frame b)) pre) by (rewrite Q at 1; now rewrite firstn_skipn). split; [exact Q2 |].
        rewrite Q2 in E. rewrite <- app_assoc in E. now apply app_inv_head in E. }
      destruct P as (pre' & -> & E'). assert (Lw : (0 < length (write_frame b))%nat) by (unfold write_frame; rewrite app_length; cbn; lia). rewrite app_length in L.
      destruct (IH pre' suf F' E' n) as (whole & rest & cut & -> & -> & R & C); [lia |]. exists (b :: whole), rest, cut. split; [reflexivity |]. split; [cbn [flat_map]; now rewrite app_assoc |]. split; [| exact C].
      cbn [read_stream]. rewrite read_written by exact Fb. cbn [fst]. now rewrite R.
    + assert (T : exists tl, write_frame b = pre ++ tl /\ tl <> []).
      { exists (skipn (length pre) (write_frame b)). assert (Q := f_equal (firstn (length pre)) E). rewrite firstn_app in Q. replace (length pre - length (write_frame b))%nat with 0%nat in Q by lia. rewrite firstn_O, app_nil_r in Q.
        rewrite firstn_app, firstn_all, Nat.sub_diag, firstn_O, app_nil_r in Q. split; [rewrite <- Q at 1; now rewrite firstn_skipn |]. intro Z. apply (f_equal (@length N)) in Z. rewrite skipn_length in Z. cbn [length] in Z. lia. }
      destruct T as (tl & T & NE). exists [], (b :: bodies), pre. split; [reflexivity |]. split; [reflexivity |]. split; [| right; exists b, bodies; split; [reflexivity | exists tl; auto]].
      cbn [read_stream]. destruct (read_frame pre) as [| e | b' rest'] eqn:R; try reflexivity. exfalso. exact (truncated b pre tl Fb T NE _ _ R).
Qed.
