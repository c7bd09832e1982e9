(* The logic of Tells.v, for what the highlighter shows: the marks of a result are true of the text, and their tokens are, each once,
   among those that were read. *)
From Coq Require Import ZifyBool ZifyNat ZifyN Permutation.
From Coq Require Import String.
From Coq Require Import List.
From Verif Require Import AstSheet SpecSheet SpecLex SpecTrace SpecParser SpecSyntax SpecTraits SpecRules SpecFeatures SpecSelectors SpecCursor SpecToken LexBase TokenProofs KindProofs LexFacts LexTrace CursorProofs CursorLex
  ParserProofs ParserProofs2 ParserProofs3 ParserProofs4 CompareProofs SyntaxProofs SyntaxTotal TraitsTotal RulesTotal FeatureProofs FaithProofs FaithTraits FaithRules SelectorProofs3 SelectorProofs4 SelectorProofs9 Goes
  Tells Tells2 Tells3 Tells4 Tells5 Tells6 Tells7 Tells8 Tells9 SpecHighlight.
Open Scope N_scope.
Open Scope list_scope.

Definition cursor_dec : forall a b : cursor, {a = b} + {a <> b}.
Proof. repeat decide equality; apply N.eq_dec. Defined.
Definition count (l : list cursor) (c : cursor) : nat := count_occ cursor_dec l c.
Definition among (l u : list cursor) : Prop := forall c, (count l c <= count u c)%nat.
Definition marked (l : list mark) : list cursor := flat_map mark_cursors l.
Definition sh (src : text) (l : list mark) (u : list cursor) : Prop := Forall (true_mark src) l /\ among (marked l) u.

Lemma count_app : forall a b c, count (a ++ b) c = (count a c + count b c)%nat.
Proof. intros. apply count_occ_app. Qed.
Lemma marked_app : forall a b, marked (a ++ b) = marked a ++ marked b.
Proof. intros. apply flat_map_app. Qed.
Lemma among_refl : forall l, among l l.
Proof. intros l c. lia. Qed.
Lemma sh_nil : forall src u, sh src [] u.
Proof. intros src u. split; [constructor |]. intro c. cbn. lia. Qed.
Lemma sh_app : forall src l u l' v, sh src l u -> sh src l' v -> sh src (l ++ l') (u ++ v).
Proof.
  intros src l u l' v (A & B) (C & D). split; [apply Forall_app; auto |]. intro c. rewrite marked_app, !count_app. specialize (B c). specialize (D c). lia.
Qed.
Lemma sh_perm : forall src l l' u, Permutation l l' -> sh src l u -> sh src l' u.
Proof.
  intros src l l' u P (A & B). split; [exact (Permutation_Forall P A) |]. intro c. specialize (B c). unfold count, marked in *. rewrite <- (proj1 (Permutation_count_occ cursor_dec _ _) (Permutation_flat_map mark_cursors P) c). exact B.
Qed.
Lemma sh_one : forall src m u, true_mark src m -> among (mark_cursors m) u -> sh src [m] u.
Proof. intros src m u T A. split; [constructor; [exact T | constructor] |]. intro c. specialize (A c). unfold marked. cbn [flat_map]. rewrite app_nil_r. exact A. Qed.
Lemma sh_cons : forall src m l u v, true_mark src m -> among (mark_cursors m) u -> sh src l v -> sh src (m :: l) (u ++ v).
Proof. intros src m l u v T A B. exact (sh_app src [m] u l v (sh_one src m u T A) B). Qed.
Lemma sh_left : forall src l u v, sh src l v -> sh src l (u ++ v).
Proof. intros src l u v B. exact (sh_app src [] u l v (sh_nil src u) B). Qed.
Lemma sh_right : forall src l u v, sh src l u -> sh src l (u ++ v).
Proof. intros src l u v B. rewrite <- (app_nil_r l). exact (sh_app src l u [] v B (sh_nil src v)). Qed.
Lemma sh_le : forall src l u v, sh src l u -> among u v -> sh src l v.
Proof. intros src l u v (A & B) C. split; [exact A |]. intro c. specialize (B c). specialize (C c). lia. Qed.

(* solve [sh src L U] from facts about the pieces *)
Ltac shows_facts := repeat match goal with H : sh _ _ _ |- _ => let A := fresh "F" in let B := fresh "A" in destruct H as [A B] end.
Ltac cov := cbv beta iota zeta in *; repeat match goal with H : _ /\ _ |- _ => destruct H end; shows_facts; split;
  [repeat first [assumption | apply Forall_nil | apply Forall_app; split | apply Forall_cons]
  | let c := fresh "c" in intro c; repeat match goal with H : among _ _ |- _ => specialize (H c) end; rewrite ?marked_app, ?count_app in *; unfold marked in *; cbn [flat_map mark_cursors app] in *;
    repeat match goal with H : context [count (?x :: ?l) c] |- _ => lazymatch l with [] => fail | _ => change (x :: l) with ([x] ++ l) in H end | |- context [count (?x :: ?l) c] => lazymatch l with [] => fail | _ => change (x :: l) with ([x] ++ l) end end;
    rewrite ?flat_map_app, ?count_app, ?app_nil_r in *; change (count [] c) with 0%nat in *; lia].

Section Tokens.
Variable src : text.
Variable f : feature.
Notation tells := (tells src f).
Notation onto := (onto src f).
Notation tv := (tv src f).

(* a token that is read is the last of those that are read *)
Lemma next_last : forall p cs c q, onto p cs -> next p = Some (c, q) -> exists u rest, cs = u ++ rest /\ onto q rest /\
  (ctok c = T_EOF \/ kind_of c <> K_Eof /\ exists sk, u = sk ++ [c] /\ Forall (in_kinds (pskip p)) sk).
Proof.
  intros p cs c q (A & B & C & D) N. destruct (next_total p cs C) as (c1 & q1 & sk & rest & N1 & E & F & St & Hc & _ & A' & Se). rewrite N in N1. injection N1 as <- <-.
  destruct Se as (_ & _ & Sk & _ & S1 & S2). assert (O : onto q (tl rest)) by (unfold Tells.onto; rewrite S1, S2, Sk; auto).
  destruct rest as [| d rest]; cbn [tl hd_or_eof] in *.
  - exists sk, []. split; [exact E |]. split; [exact O |]. left. subst c. reflexivity.
  - subst d. exists (sk ++ [c]), rest. rewrite <- app_assoc. split; [exact E |]. split; [exact O |]. right. split; [| exists sk; auto]. apply (ahead_kind _ _ C). rewrite E. apply in_or_app. right. now left.
Qed.
Lemma s_built : forall A k (build : parser -> cursor -> option A), Tells.solid k ->
  tells (parse_built k build) (fun a u => exists c p q, (exists sk, u = sk ++ [c]) /\ kind_of c <> K_Eof /\ k p c = Some true /\ build q c = Some a /\ lsrc (plex q) = src).
Proof.
  intros A k build So p cs O. unfold parse_built. destruct (peek k p) as [b |] eqn:Pk; [| apply tv_none]. destruct (next p) as [[c q] |] eqn:N; [| apply tv_none].
  destruct (next_onto src f p cs c q O N) as (_ & _ & _ & _ & _ & Pn & _). destruct (next_last p cs c q O N) as (u & rest & -> & Oq & X). unfold peek in Pk. rewrite Pn in Pk. destruct b.
  - destruct X as [X | (Kc & sk & Eu & _)]; [exfalso; apply (So p (coff c)); rewrite <- Pk; destruct c as [o t]; simpl in X; subst t; reflexivity |]. destruct (build q c) as [x |] eqn:B; [| apply tv_none].
    intros r q' E. injection E as <- <-. exists u, rest. split; [reflexivity |]. split; [exact Oq |]. intros a E. injection E as <-. exists c, p, q. pose proof Oq as (Oqs & _). split; [eauto |]. repeat (split; [assumption |]). exact Oqs.
  - apply (tv_fails _ _ _ _ _ _ _ rest Oq). eauto.
Qed.
Lemma among_last : forall sk c, among [c] (sk ++ [c]).
Proof. intros sk c d. rewrite count_app. lia. Qed.
Lemma s_single : forall k, Tells.solid k -> tells (parse_single k (fun c => c)) (fun c u => (exists sk, u = sk ++ [c]) /\ kind_of c <> K_Eof /\ exists p, k p c = Some true).
Proof.
  intros k So. change (parse_single k (fun c : cursor => c)) with (parse_built k (fun _ c => Some c)). eapply tells_imp; [apply s_built; exact So |]. intros a u (c & p & q & Eu & Kc & Pk & B & _). injection B as <-. eauto.
Qed.
Lemma s_kind : forall k, k <> K_Eof -> tells (parse_kind k) (fun c u => among [c] u /\ kind_of c = k).
Proof.
  intros k N. eapply tells_imp; [apply s_single; exact (solid_kind k N) |]. intros c u ((sk & ->) & Kc & p & Pk). split; [apply among_last |]. unfold peek_kind in Pk. apply some_inj in Pk. exact (kind_is c k Kc Pk).
Qed.
Lemma s_kind_last : forall k, k <> K_Eof -> tells (parse_kind k) (fun c u => (exists sk, u = sk ++ [c]) /\ kind_of c = k).
Proof.
  intros k N. eapply tells_imp; [apply s_single; exact (solid_kind k N) |]. intros c u (Eu & Kc & p & Pk). split; [exact Eu |]. unfold peek_kind in Pk. apply some_inj in Pk. exact (kind_is c k Kc Pk).
Qed.
Lemma s_if_kind : forall k, k <> K_Eof -> tells (if_kind k) (fun o u => match o with Some c => among [c] u /\ kind_of c = k | None => True end).
Proof.
  intros k N. unfold if_kind. eapply tells_imp; [apply tells_if_peek, s_kind; exact N |]. intros [c |] u Ku; [exact Ku | exact Logic.I].
Qed.
Lemma s_dashed : tells parse_dashed_ident (fun c u => among [c] u /\ kind_of c = K_Ident /\ is_dashed_ident (ctok c) = true).
Proof.
  eapply tells_imp; [apply s_single; exact solid_dashed |]. intros c u ((sk & ->) & Kc & p & Pk). split; [apply among_last |]. unfold peek_dashed_ident in Pk. apply some_inj in Pk. apply andb_prop in Pk. split; [exact (kind_is c _ Kc (proj1 Pk)) | apply Pk].
Qed.
(* one token and nothing before it *)
Lemma s_bare_kind : forall k, k <> K_Eof -> tells (unskipped (parse_kind k)) (fun c u => u = [c] /\ kind_of c = k).
Proof.
  intros k N p cs O r q E. unfold unskipped in E. destruct (parse_kind k (set_skip p KS_NONE)) as [[r1 q1] |] eqn:Em; [| discriminate]. injection E as <- <-.
  pose proof (onto_skip src f _ _ _ none_trivia O) as O0. destruct (s_kind_last k N (set_skip p KS_NONE) cs O0 _ _ Em) as (u & rest & E0 & O' & Ka). exists u, rest. split; [exact E0 |]. split; [exact (onto_skip src f _ _ _ (onto_own src f _ _ O) O') |].
  intros c Ec. destruct (Ka c Ec) as ((sk & Eu) & Kc). split; [| exact Kc]. subst r1.
  unfold parse_kind, parse_single in Em. destruct (peek (peek_kind k) (set_skip p KS_NONE)) as [[] |]; [| destruct (next (set_skip p KS_NONE)) as [[d q2] |]; discriminate | discriminate]. destruct (next (set_skip p KS_NONE)) as [[d q2] |] eqn:Nx; [| discriminate]. injection Em as -> ->.
  destruct (next_last _ cs c q1 O0 Nx) as (u' & rest' & E1 & (_ & _ & A1 & _) & X). destruct O' as (_ & _ & A2 & _). pose proof (ahead_det _ _ A1 _ A2) as Er. subst rest'. assert (u' = u) by (apply (app_inv_tail rest); congruence). subst u'.
  destruct X as [X | (_ & sk' & Eu' & F)]; [exfalso; apply N; rewrite <- Kc; unfold kind_of; rewrite X; reflexivity |].
  destruct sk' as [| y sk']; [exact Eu' |]. inversion F as [| ? ? Iy]; subst. exfalso. unfold in_kinds in Iy. cbn [pskip set_skip] in Iy. destruct (none_trivia _ Iy) as [Z | Z]; rewrite Z in Iy; vm_compute in Iy; discriminate.
Qed.
End Tokens.
