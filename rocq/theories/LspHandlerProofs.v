From Coq Require Import String.
From Coq Require Import List.
From Coq Require Import ZifyBool ZifyNat ZifyN.
From Verif Require Import LspHandler SpecLspHandler LspMessageProofs.
Open Scope N_scope.
Open Scope list_scope.

Lemma same_key_eq : forall a b, same_key a b = true <-> a = b.
Proof. intros a b. unfold same_key. destruct (list_eq_dec N.eq_dec a b); split; congruence. Qed.
Lemma member_in : forall m l, member m l = true <-> In m l.
Proof.
  intros m l. unfold member. rewrite existsb_exists. split.
  - intros (x & I & E). apply same_key_eq in E. now subst.
  - intros I. exists m. split; [exact I | now apply same_key_eq].
Qed.
Lemma member_not : forall m l, ~ In m l -> member m l = false.
Proof. intros m l H. destruct (member m l) eqn:E; [| reflexivity]. now apply member_in in E. Qed.
Lemma tables_disjoint : forall m, In m notification_methods -> member m request_methods = false /\ member m bare_methods = false.
Proof.
  intros m H. cbv [notification_methods names map] in H. cbn [In] in H.
  repeat (destruct H as [H | H]; [subst m; split; reflexivity |]). contradiction.
Qed.
Lemma not_exit : forall m, is_exit m = true <-> exists p, m = Notification (chars "exit"%string) p.
Proof.
  intros m. split.
  - destruct m; try discriminate. cbn [is_exit]. rewrite same_key_eq. intros ->. eauto.
  - intros (p & ->). now apply same_key_eq.
Qed.
Lemma initialize_is : forall m, is_initialize m = true <-> exists i p, m = Request i (chars "initialize"%string) p.
Proof.
  intros m. split.
  - destruct m; try discriminate. cbn [is_initialize]. rewrite same_key_eq. intros ->. eauto.
  - intros (i & p & ->). now apply same_key_eq.
Qed.

Section Proofs.
Context {S : Type} (initialized : S -> bool) (decodes : text -> json -> bool)
        (request : text -> json -> S -> option (S * (json + error_code))) (notify : text -> json -> S -> option S).
Notation handle := (handle initialized decodes request notify).
Notation serve := (serve initialized decodes request notify).

Lemma from_result_id : forall i r, replies_to i (from_result i r).
Proof. intros i [v | c]; reflexivity. Qed.

(* a request is answered at most once and only with its own id *)
Lemma request_replied : forall s i me p s' r, ~ In me notification_methods -> initialized s = true \/ me = chars "initialize"%string ->
  handle s (Request i me p) = Some (s', r) -> exists x, r = Some x /\ replies_to i x.
Proof.
  intros s i me p s' r N U H. unfold LspHandler.handle in H. cbn [is_exit method_of params_of id_or_default is_initialize] in H.
  assert (G : negb (initialized s) && negb (same_key me (chars "initialize")) = false).
  { destruct U as [-> | ->]; [reflexivity |]. rewrite (proj2 (same_key_eq _ _) eq_refl). cbn [negb]. now rewrite andb_false_r. }
  rewrite G in H. rewrite (member_not _ _ N) in H. unfold answer in H.
  destruct (member me request_methods).
  - destruct (decodes me p).
    + destruct (request me p s) as [[s1 v] |]; inversion H; subst. exists (from_result i v). split; [reflexivity | apply from_result_id].
    + inversion H; subst. now eexists.
  - destruct (member me bare_methods).
    + destruct (request me JNull s) as [[s1 v] |]; inversion H; subst. exists (from_result i v). split; [reflexivity | apply from_result_id].
    + inversion H; subst. now eexists.
Qed.
Lemma notification_silent : forall s me p s' r, ~ In me request_methods -> ~ In me bare_methods ->
  handle s (Notification me p) = Some (s', r) -> r = None.
Proof.
  intros s me p s' r A B H. unfold LspHandler.handle in H. destruct (is_exit _); [now inversion H |].
  destruct (negb _ && _); [now inversion H |]. cbn [method_of params_of] in H. rewrite (member_not _ _ A), (member_not _ _ B) in H.
  destruct (member me notification_methods); [| now inversion H]. destruct (decodes me p); [| now inversion H].
  destruct (notify me p s); now inversion H.
Qed.
Lemma empty_method : member [] request_methods = false /\ member [] bare_methods = false /\ member [] notification_methods = false.
Proof. repeat split; reflexivity. Qed.
Lemma response_ignored : forall s m, match m with ResponseOk _ _ | ResponseErr _ _ _ _ => True | _ => False end -> handle s m = Some (s, None).
Proof.
  intros s m H. destruct empty_method as (A & B & C). destruct m; try contradiction; unfold LspHandler.handle; cbn [is_exit is_initialize negb method_of];
    rewrite A, B, C; destruct (initialized s); reflexivity.
Qed.
Lemma not_ready : forall s m, initialized s = false -> not_initialize m -> handle s m = Some (s, None).
Proof.
  intros s m U N. unfold LspHandler.handle. destruct (is_exit m); [reflexivity |]. rewrite U.
  destruct (is_initialize m) eqn:E; [| reflexivity]. apply initialize_is in E as (i & p & ->). cbn in N. congruence.
Qed.
Lemma serve_not_ready : forall ms s, initialized s = false -> Forall not_initialize ms -> serve s ms = ([], Some s).
Proof.
  induction ms as [| m ms IH]; intros s U F; cbn [LspHandler.serve]; [reflexivity |]. inversion F; subst.
  destruct (is_exit m); [reflexivity |]. rewrite not_ready by assumption. rewrite IH by assumption. reflexivity.
Qed.
Lemma after_exit : forall ms p s r, serve s (ms ++ Notification (chars "exit"%string) p :: r) = serve s ms.
Proof.
  induction ms as [| m ms IH]; intros p s r; cbn [LspHandler.serve app].
  - now rewrite (proj2 (not_exit _) (ex_intro _ p eq_refl)).
  - destruct (is_exit m); [reflexivity |]. destruct (handle s m) as [[s' x] |]; [| reflexivity]. now rewrite IH.
Qed.

(* histories *)
Context (ready_kept_r : forall me p s s' r, request me p s = Some (s', r) -> initialized s = true -> initialized s' = true)
        (ready_kept_n : forall me p s s', notify me p s = Some s' -> initialized s = true -> initialized s' = true).
Lemma handle_ready : forall s m s' r, handle s m = Some (s', r) -> initialized s = true -> initialized s' = true.
Proof.
  intros s m s' r H U. unfold LspHandler.handle, answer in H. destruct (is_exit m); [inversion H; now subst |].
  rewrite U in H. cbn [negb andb] in H.
  repeat match type of H with
  | (if ?b then _ else _) = _ => destruct b
  | match request ?a ?b ?c with _ => _ end = _ => destruct (request a b c) as [[? ?] |] eqn:?
  | match notify ?a ?b ?c with _ => _ end = _ => destruct (notify a b c) eqn:?
  | match m with _ => _ end = _ => destruct m
  end; inversion H; subst; eauto.
Qed.
Lemma answers : forall ms s out s', initialized s = true -> Forall disciplined ms -> no_exit ms -> serve s ms = (out, Some s') ->
  Forall2 replies_to (request_ids ms) out.
Proof.
  induction ms as [| m ms IH]; intros s out s' U D X H; cbn [LspHandler.serve] in H; [inversion H; constructor |].
  inversion D as [| ? ? D1 D2]; subst. inversion X as [| ? ? X1 X2]; subst.
  destruct (is_exit m) eqn:E; [apply not_exit in E as (p & ->); congruence |].
  destruct (handle s m) as [[s1 reply] |] eqn:H1; [| discriminate]. destruct (serve s1 ms) as [o e] eqn:H2. inversion H; subst.
  pose proof (handle_ready _ _ _ _ H1 U) as U1. specialize (IH _ _ _ U1 D2 X2 H2). unfold request_ids. cbn [flat_map]. fold (request_ids ms).
  destruct m as [i me p | i v | i c g d | me p].
  - destruct (request_replied _ _ _ _ _ _ D1 (or_introl U) H1) as (x & -> & R). cbn [app]. now constructor.
  - rewrite response_ignored in H1 by exact I. inversion H1; subst. exact IH.
  - rewrite response_ignored in H1 by exact I. inversion H1; subst. exact IH.
  - rewrite (notification_silent _ _ _ _ _ (proj1 D1) (proj2 D1) H1). exact IH.
Qed.
(* a stuck thread: everything before the call that hangs has been answered, and nothing after *)
Lemma answers_stuck : forall ms s out, initialized s = true -> Forall disciplined ms -> no_exit ms -> serve s ms = (out, None) ->
  exists before m after, ms = before ++ m :: after /\ Forall2 replies_to (request_ids before) out.
Proof.
  induction ms as [| m ms IH]; intros s out U D X H; cbn [LspHandler.serve] in H; [inversion H |].
  inversion D as [| ? ? D1 D2]; subst. inversion X as [| ? ? X1 X2]; subst.
  destruct (is_exit m) eqn:E; [apply not_exit in E as (p & ->); congruence |].
  destruct (handle s m) as [[s1 reply] |] eqn:H1.
  - destruct (serve s1 ms) as [o e] eqn:H2. inversion H; subst.
    pose proof (handle_ready _ _ _ _ H1 U) as U1. destruct (IH _ _ U1 D2 X2 H2) as (b & m1 & a & -> & R). exists (m :: b), m1, a. split; [reflexivity |].
    unfold request_ids. cbn [flat_map]. fold (request_ids b).
    destruct m as [i me p | i v | i c g d | me p].
    + destruct (request_replied _ _ _ _ _ _ D1 (or_introl U) H1) as (x & -> & R1). cbn [app]. now constructor.
    + rewrite response_ignored in H1 by exact I. inversion H1; subst. exact R.
    + rewrite response_ignored in H1 by exact I. inversion H1; subst. exact R.
    + rewrite (notification_silent _ _ _ _ _ (proj1 D1) (proj2 D1) H1). exact R.
  - inversion H; subst. exists [], m, ms. split; [reflexivity | constructor].
Qed.
(* nothing hangs when no callback does *)
Lemma never_stuck : (forall me p s, request me p s <> None) -> (forall me p s, notify me p s <> None) ->
  forall ms s, snd (serve s ms) <> None.
Proof.
  intros R N ms. induction ms as [| m ms IH]; intros s; cbn [LspHandler.serve]; [discriminate |]. destruct (is_exit m); [discriminate |].
  assert (H : handle s m <> None).
  { unfold LspHandler.handle, answer. destruct (is_exit m); [discriminate |]. destruct (negb _ && _); [discriminate |].
    repeat match goal with
    | |- (if ?b then _ else _) <> _ => destruct b
    | |- match request ?a ?b ?c with _ => _ end <> _ => destruct (request a b c) as [[? ?] |] eqn:Q; [| now apply R in Q]
    | |- match notify ?a ?b ?c with _ => _ end <> _ => destruct (notify a b c) eqn:Q; [| now apply N in Q]
    | |- match m with _ => _ end <> _ => destruct m
    end; discriminate. }
  destruct (handle s m) as [[s' r] |]; [| congruence]. specialize (IH s'). destruct (serve s' ms). exact IH.
Qed.
End Proofs.
