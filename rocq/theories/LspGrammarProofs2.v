(* What is read as a JSON value is a text of that value (floats aside). *)
From Coq Require Import ZifyBool ZifyNat ZifyN.
From Coq Require Import String.
From Coq Require Import List.
From Verif Require Import LspJson SpecLspFrame SpecLspJson SpecLspString SpecLspGrammar LspFrameProofs LspMessageProofs LspJsonProofs LspStringProofs LspGrammarProofs.
Open Scope N_scope.
Open Scope list_scope.

Lemma skip_split : forall l, exists w, l = w ++ skip_ws l /\ blank w.
Proof.
  induction l as [| c l (w & E & B)]; [exists []; split; [reflexivity | constructor] |]. cbn [skip_ws]. destruct (json_ws c) eqn:W; [| exists []; split; [reflexivity | constructor]].
  exists (c :: w). split; [cbn [app]; now rewrite <- E |]. constructor; [| exact B]. unfold json_ws in W. cbn [In]. lia.
Qed.
Lemma run_parts : forall p l, exists a, l = a ++ snd (run p l) /\ a = fst (run p l) /\ Forall (fun b => p b = true) a.
Proof.
  induction l as [| c l (a & E & F & H)]; [exists []; repeat split; constructor |]. cbn [run]. destruct (p c) eqn:P; [| exists []; repeat split; constructor].
  exists (c :: a). cbn [fst snd app]. split; [now rewrite <- E | split; [now rewrite F | now constructor]].
Qed.
Lemma number_spelled : forall d l v r, read_number (fun _ => None) l = Some (v, r) -> exists t, l = t ++ r /\ json_spelled d t v.
Proof.
  intros d l v r H. unfold read_number in H. set (neg := match l with c :: _ => c =? 45 | [] => false end) in H. set (ds0 := if neg then tl l else l) in H.
  destruct (run_parts is_ascii_digit ds0) as (ds & E & F & A). unfold read_digits in H. destruct (run is_ascii_digit ds0) as (ds' & rest). cbn [fst snd] in E, F. subst ds'.
  destruct ds as [| x ds]; [discriminate H |]. destruct ((x =? 48) && negb (Nat.eqb (length ds) 0)) eqn:Z0; [discriminate H |].
  destruct (match rest with c :: _ => (c =? 46) || (c =? 101) || (c =? 69) | [] => false end); [discriminate H |].
  assert (Fd : Forall (fun b => 48 <= b <= 57) (x :: ds)) by (eapply Forall_impl; [| exact A]; cbv beta; unfold is_ascii_digit; lia).
  assert (Id : integer_digits (x :: ds)).
  { split; [split; [discriminate | exact Fd] |]. cbn [hd]. destruct (N.eq_dec x 48) as [-> | Q]; [left | now right]. destruct ds; [reflexivity |]. discriminate Z0. }
  assert (DD : dec_digits (x :: ds) = Some (value_of (x :: ds))) by (unfold dec_digits; rewrite dec_digits_acc by exact Fd; f_equal; lia). rewrite DD in H.
  subst neg ds0. destruct l as [| c l]; [destruct ds; discriminate E |]. destruct (c =? 45) eqn:C.
  - apply N.eqb_eq in C. subst c. cbn [tl] in E. destruct ((value_of (x :: ds) =? 0) || (I64 <? value_of (x :: ds))) eqn:R; [discriminate H |]. injection H as <- <-. exists (45 :: x :: ds). split; [rewrite E; reflexivity |]. constructor; [exact Id |]. change (2 ^ 63) with I64. lia.
  - destruct (value_of (x :: ds) <? U64) eqn:R; [| discriminate H]. injection H as <- <-. exists (x :: ds). split; [exact E |]. constructor; [exact Id |]. change (2 ^ 64) with U64. lia.
Qed.
Lemma expect_spelled : forall s v l v' r, expect s v l = Some (v', r) -> v' = v /\ l = s ++ r.
Proof.
  intros s v l v' r H. unfold expect in H. destruct (same_key (firstn (length s) l) s) eqn:K; [| discriminate H]. injection H as <- <-. split; [reflexivity |]. unfold same_key in K. destruct (list_eq_dec N.eq_dec (firstn (length s) l) s) as [K' |]; [| discriminate K]. rewrite <- K' at 1. now rewrite firstn_skipn.
Qed.
Lemma read_spelled_values : forall n,
  (forall D l v r, value_at (fun _ => None) n D l = Some (v, r) -> exists w t, l = w ++ t ++ r /\ blank w /\ json_spelled (D - 1) t v) /\
  (forall D l vs r, elems_at (fun _ => None) n D l = Some (vs, r) -> exists t, l = t ++ 93 :: r /\ elements_spelled (D - 1) t vs) /\
  (forall D l vs r, members_at (fun _ => None) n D l = Some (vs, r) -> exists t, l = t ++ 125 :: r /\ members_spelled (D - 1) t vs).
Proof.
  induction n as [| n (IHv & IHe & IHm)]; [repeat split; intros; discriminate |]. split; [| split].
  - intros D l v r H. cbn [value_at] in H. destruct (skip_split l) as (w & E & B). destruct (skip_ws l) as [| c l']; [discriminate H |]. exists w.
    assert (Done : forall t, c :: l' = t ++ r -> json_spelled (D - 1) t v -> exists t, l = w ++ t ++ r /\ blank w /\ json_spelled (D - 1) t v).
    { intros t Et Ht. exists t. split; [rewrite E; now rewrite <- Et | now split]. }
    destruct (c =? 110) eqn:C1. { apply N.eqb_eq in C1. subst c. apply expect_spelled in H. destruct H as (-> & El). apply (Done (chars "null"%string)); [rewrite El; reflexivity | constructor]. }
    destruct (c =? 116) eqn:C2. { apply N.eqb_eq in C2. subst c. apply expect_spelled in H. destruct H as (-> & El). apply (Done (chars "true"%string)); [rewrite El; reflexivity | constructor]. }
    destruct (c =? 102) eqn:C3. { apply N.eqb_eq in C3. subst c. apply expect_spelled in H. destruct H as (-> & El). apply (Done (chars "false"%string)); [rewrite El; reflexivity | constructor]. }
    destruct ((c =? 45) || is_ascii_digit c). { destruct (number_spelled (D - 1) _ _ _ H) as (t & Et & Ht). now apply (Done t). }
    destruct (c =? 34) eqn:C4.
    { apply N.eqb_eq in C4. subst c. destruct (read_str l') as [(s, rest) |] eqn:R; [| discriminate H]. injection H as <- <-. destruct (spelled_read _ _ _ _ (le_n _) R) as (p & -> & Hp). apply (Done (34 :: p ++ [34])); [cbn [app]; now rewrite <- app_assoc | now constructor]. }
    destruct (c =? 91) eqn:C5.
    { apply N.eqb_eq in C5. subst c. destruct (Nat.leb D 1) eqn:LD; [discriminate H |]. apply Nat.leb_gt in LD. replace (D - 1)%nat with (S (D - 1 - 1)) in Done |- * by lia.
      destruct (skip_split l') as (w1 & E1 & B1). destruct (skip_ws l') as [| e r']; [discriminate H |]. destruct (e =? 93) eqn:C6.
      - apply N.eqb_eq in C6. subst e. injection H as <- <-. apply (Done (91 :: w1 ++ [93])); [cbn [app]; rewrite <- app_assoc; cbn [app]; now rewrite <- E1 | now constructor].
      - destruct (elems_at (fun _ => None) n (D - 1) l') as [(vs, r0) |] eqn:El; [| discriminate H]. injection H as <- <-. destruct (IHe _ _ _ _ El) as (t & -> & Ht). apply (Done (91 :: t ++ [93])); [cbn [app]; now rewrite <- app_assoc | now constructor]. }
    destruct (c =? 123) eqn:C6; [| discriminate H].
    apply N.eqb_eq in C6. subst c. destruct (Nat.leb D 1) eqn:LD; [discriminate H |]. apply Nat.leb_gt in LD. replace (D - 1)%nat with (S (D - 1 - 1)) in Done |- * by lia.
    destruct (skip_split l') as (w1 & E1 & B1). destruct (skip_ws l') as [| e r']; [discriminate H |]. destruct (e =? 125) eqn:C7.
    + apply N.eqb_eq in C7. subst e. injection H as <- <-. apply (Done (123 :: w1 ++ [125])); [cbn [app]; rewrite <- app_assoc; cbn [app]; now rewrite <- E1 | now constructor].
    + destruct (members_at (fun _ => None) n (D - 1) l') as [(vs, r0) |] eqn:El; [| discriminate H]. injection H as <- <-. destruct (IHm _ _ _ _ El) as (t & -> & Ht). apply (Done (123 :: t ++ [125])); [cbn [app]; now rewrite <- app_assoc | now constructor].
  - intros D l vs r H. cbn [elems_at] in H. destruct (value_at (fun _ => None) n D l) as [(v, r1) |] eqn:V; [| discriminate H]. destruct (IHv _ _ _ _ V) as (w & t & -> & Bw & Ht).
    destruct (skip_split r1) as (w1 & E1 & B1). destruct (skip_ws r1) as [| c r2]; [discriminate H |]. destruct (c =? 93) eqn:C.
    + apply N.eqb_eq in C. subst c. injection H as <- <-. exists (w ++ t ++ w1). split; [rewrite E1; now rewrite <- !app_assoc | now constructor].
    + destruct (c =? 44) eqn:C'; [| discriminate H]. apply N.eqb_eq in C'. subst c. destruct (elems_at (fun _ => None) n D r2) as [(vs', r3) |] eqn:El; [| discriminate H]. injection H as <- <-. destruct (IHe _ _ _ _ El) as (ts & -> & Hts).
      exists (w ++ t ++ w1 ++ 44 :: ts). split; [rewrite E1; rewrite <- !app_assoc; reflexivity | now constructor].
  - intros D l vs r H. cbn [members_at] in H. destruct (skip_split l) as (w & E & B). destruct (skip_ws l) as [| c l']; [discriminate H |]. destruct (c =? 34) eqn:C; [| discriminate H]. apply N.eqb_eq in C. subst c.
    destruct (read_str l') as [(k, r1) |] eqn:R; [| discriminate H]. destruct (spelled_read _ _ _ _ (le_n _) R) as (p & -> & Hp).
    destruct (skip_split r1) as (w1 & E1 & B1). destruct (skip_ws r1) as [| c r2]; [discriminate H |]. destruct (c =? 58) eqn:C; [| discriminate H]. apply N.eqb_eq in C. subst c.
    destruct (value_at (fun _ => None) n D r2) as [(v, r3) |] eqn:V; [| discriminate H]. destruct (IHv _ _ _ _ V) as (w2 & t & -> & B2 & Ht).
    destruct (skip_split r3) as (w3 & E3 & B3). destruct (skip_ws r3) as [| c r4]; [discriminate H |]. destruct (c =? 125) eqn:C.
    + apply N.eqb_eq in C. subst c. injection H as <- <-. exists (w ++ 34 :: p ++ 34 :: w1 ++ 58 :: w2 ++ t ++ w3). split; [| now constructor].
      rewrite E, E1, E3. repeat (rewrite <- !app_assoc; cbn [app]). reflexivity.
    + destruct (c =? 44) eqn:C'; [| discriminate H]. apply N.eqb_eq in C'. subst c. destruct (members_at (fun _ => None) n D r4) as [(vs', r5) |] eqn:El; [| discriminate H]. injection H as <- <-. destruct (IHm _ _ _ _ El) as (ts & -> & Hts).
      exists (w ++ 34 :: p ++ 34 :: w1 ++ 58 :: w2 ++ t ++ w3 ++ 44 :: ts). split; [| now constructor].
      rewrite E, E1, E3. repeat (rewrite <- !app_assoc; cbn [app]). reflexivity.
Qed.
Lemma read_texts : forall t v, valid_text t -> read_json (fun _ => None) (utf8_encode t) = Some v -> exists w p w', t = w ++ p ++ w' /\ blank w /\ json_spelled 127 p v /\ blank w'.
Proof.
  intros t v V H. unfold read_json in H. rewrite utf8_round in H by exact V. destruct (value_at (fun _ => None) (S (length t)) DEPTH t) as [(v', rest) |] eqn:E; [| discriminate H].
  destruct (skip_split rest) as (w' & Er & Bw). destruct (skip_ws rest); [| discriminate H]. injection H as <-. destruct (proj1 (read_spelled_values _) _ _ _ _ E) as (w & p & -> & B & Hp). rewrite app_nil_r in Er. subst rest. exists w, p, w'. auto.
Qed.
