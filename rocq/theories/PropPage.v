(* Theorems for C63 (page selectors are read as written, and compared as CSS Paged Media says). How they are written, and which is more
   specific, is in SpecPage.v; [spec_cmp] is the derived order of Specificity. *)
From Coq Require Import String.
From Coq Require Import List Lia.
From Verif Require Import SpecPage PageOrder SpecSyntax SpecParser SpecSelectors SpecSelectorText SpecTrace SpecTraits KindProofs LexTrace ParserProofs SelectorGoes PropSelectors SelectorProofs2 ParserProofs2  PropSelectorText PageProofs Ast.
Open Scope N_scope.
Open Scope list_scope.

(* a list of page selectors before '{' or ';', with whitespace and comments around the commas and at both ends: it is read, whole *)
Theorem C63_page_selectors_read : forall p l toks g c rest, ready p -> ahead (plex p) (toks ++ g ++ c :: rest) -> pages_written (lsrc (plex p)) l toks -> gap g -> kind_of c = K_LeftCurly \/ kind_of c = K_Semicolon ->
  exists q, parse_page_selectors p = Some (Ok l, q) /\ ahead (plex q) (g ++ c :: rest) /\ same_mode p q.
Proof. intros p l toks g c rest R A W G Hc. destruct (pages_read l toks p g c rest W R A G Hc) as (q & E & Aq & S & _). eauto. Qed.
Print Assumptions C63_page_selectors_read.
(* so two lists are not written the same *)
Theorem C63_one_reading : forall p l l' toks g c rest, ready p -> ahead (plex p) (toks ++ g ++ c :: rest) -> pages_written (lsrc (plex p)) l toks -> pages_written (lsrc (plex p)) l' toks -> gap g ->
  kind_of c = K_LeftCurly \/ kind_of c = K_Semicolon -> l = l'.
Proof.
  intros p l l' toks g c rest R A W W' G Hc. destruct (C63_page_selectors_read p l toks g c rest R A W G Hc) as (q & E & _). destruct (C63_page_selectors_read p l' toks g c rest R A W' G Hc) as (q' & E' & _).
  rewrite E in E'. injection E' as E' _. exact E'.
Qed.
Print Assumptions C63_one_reading.
(* the three numbers, where no two pseudo-classes are of the same kind *)
Theorem C63_specificity_partial : forall x, (firsts x <= 1)%nat -> (sides x <= 1)%nat -> page_specificity x = Specificity (N.of_nat (f_of x)) (N.of_nat (firsts x)) (N.of_nat (sides x)).
Proof. intros x H1 H2. rewrite specificity_is. destruct (firsts x) as [| [|]]; [| | lia]; destruct (sides x) as [| [|]]; try lia; reflexivity. Qed.
Print Assumptions C63_specificity_partial.
(* which of two selectors wins *)
Theorem C63_order_partial : forall x y, (firsts x <= 1)%nat -> (sides x <= 1)%nat -> (firsts y <= 1)%nat -> (sides y <= 1)%nat ->
  (spec_cmp (page_specificity x) (page_specificity y) = Lt <-> less_specific x y) /\ (spec_cmp (page_specificity x) (page_specificity y) = Gt <-> less_specific y x) /\
  (spec_cmp (page_specificity x) (page_specificity y) = Eq <-> as_specific x y).
Proof.
  intros x y H1 H2 H3 H4. rewrite (C63_specificity_partial x H1 H2), (C63_specificity_partial y H3 H4). unfold spec_cmp, less_specific, as_specific. cbn [spec_a spec_b spec_c].
  assert (Hf : forall z, (f_of z <= 1)%nat) by (intros (ty & l); unfold f_of; cbn [ps_type]; destruct ty; lia). pose proof (Hf x) as Fx. pose proof (Hf y) as Fy.
  destruct (f_of x) as [| [|]]; try lia; destruct (f_of y) as [| [|]]; try lia; destruct (firsts x) as [| [|]]; try lia; destruct (firsts y) as [| [|]]; try lia;
    destruct (sides x) as [| [|]]; try lia; destruct (sides y) as [| [|]]; try lia; cbn [N.of_nat N.compare Pos.compare Pos.compare_cont Pos.of_succ_nat]; (split; [| split]); (split; intro H; try discriminate H; try reflexivity; try lia; try (exfalso; lia)).
Qed.
Print Assumptions C63_order_partial.
(* without that: a column says no more than whether there is any *)
Theorem C63_specificity_bits : forall x, spec_a (page_specificity x) = N.of_nat (f_of x) /\ (spec_b (page_specificity x) = if (0 <? firsts x)%nat then 1 else 0) /\ (spec_c (page_specificity x) = if (0 <? sides x)%nat then 1 else 0).
Proof. intro x. rewrite specificity_is. cbn [spec_a spec_b spec_c]. destruct (firsts x), (sides x); auto. Qed.
Print Assumptions C63_specificity_bits.
(* the type of the page decides, whatever else *)
Theorem C63_type_decides : forall x y, ps_type x = None -> ps_type y <> None -> spec_cmp (page_specificity x) (page_specificity y) = Lt /\ less_specific x y.
Proof.
  intros x y Hx Hy. rewrite !specificity_is. unfold spec_cmp, less_specific, f_of. rewrite Hx. destruct (ps_type y) as [t |]; [| contradiction]. cbn [spec_a N.of_nat N.compare]. split; [reflexivity | left; lia].
Qed.
Print Assumptions C63_type_decides.

Definition pages_of (s : string) : option (list page_selector) := match parse_page_selectors (parser_new (chars s) no_features) with Some (Ok l, _) => Some (map fst l) | _ => None end.
(* :first:blank is more specific than :first:left, and the code has it the other way round; :blank:first is as specific as :first *)
Theorem C63_order_refuted : (exists x y, pages_of ":first:blank, :first:left {" = Some [x; y] /\ less_specific y x /\ spec_cmp (page_specificity x) (page_specificity y) = Lt) /\
  exists x y, pages_of ":first, :blank:first {" = Some [x; y] /\ less_specific x y /\ spec_cmp (page_specificity x) (page_specificity y) = Eq.
Proof.
  split; eexists _, _; (split; [vm_compute; reflexivity |]); (split; [| vm_compute; reflexivity]); right; (split; [reflexivity |]); left; vm_compute; lia.
Qed.
Print Assumptions C63_order_refuted.
(* whitespace is accepted where CSS does not allow it, and so is the type "auto" *)
Theorem C63_accepted_refuted : Forall (fun s => exists x, pages_of s = Some [x]) ["a :first {"; ":left :first {"; "auto {"; "a/**/:left{"]%string.
Proof. repeat (apply Forall_cons; [eexists; vm_compute; reflexivity |]). apply Forall_nil. Qed.
Print Assumptions C63_accepted_refuted.
(* a case *)
Definition page_text : string := " a:First:left , /**/ :blank { }".
Definition page_cursors : list cursor := Eval vm_compute in (match lex (chars page_text) no_features with Some l => l | None => [] end).
Definition pc (i : nat) : cursor := nth i page_cursors (Cursor 0 T_EOF).
Example C63_case : exists p l toks g c rest, p = parser_new (chars page_text) no_features /\ ready p /\ ahead (plex p) (toks ++ g ++ c :: rest) /\ pages_written (lsrc (plex p)) l toks /\ gap g /\ kind_of c = K_LeftCurly /\
  List.length l = 2%nat /\ exists x y, map fst l = [x; y] /\ (firsts x <= 1)%nat /\ (sides x <= 1)%nat /\ (firsts y <= 1)%nat /\ (sides y <= 1)%nat /\ less_specific y x.
Proof.
  set (p := parser_new (chars page_text) no_features). assert (R : ready p) by (apply sample_ready; reflexivity).
  assert (A : ahead (plex p) page_cursors). { destruct (ready_ahead p R) as (cs & A). pose proof (ahead_lex _ _ _ A) as E. vm_compute in E. injection E as <-. exact A. }
  exists p, [(PageSelector (Some (pc 1)) [(PpFirst, (pc 2, pc 3)); (PpLeft, (pc 4, pc 5))], Some (pc 7)); (PageSelector None [(PpBlank, (pc 11, pc 12))], None)], (firstn 13 page_cursors), [pc 13], (pc 14), (skipn 15 page_cursors).
  split; [reflexivity |]. split; [exact R |]. split; [exact A |]. split.
  - change (firstn 13 page_cursors) with ([pc 0] ++ (pc 1 :: pc 2 :: pc 3 :: pc 4 :: pc 5 :: []) ++ [pc 6] ++ pc 7 :: ([pc 8; pc 9; pc 10] ++ pc 11 :: pc 12 :: [])).
    apply pw_more; [apply one_gap; reflexivity | | apply one_gap; reflexivity | reflexivity |].
    + apply pw_type; [reflexivity |]. apply pw_cons; [reflexivity | reflexivity | vm_compute; reflexivity |]. apply pw_cons; [reflexivity | reflexivity | vm_compute; reflexivity |]. apply pw_none.
    + apply pw_one; [constructor; [now left |]; constructor; [now right |]; apply one_gap; reflexivity |]. apply pw_pseudos. apply pw_cons; [reflexivity | reflexivity | vm_compute; reflexivity |]. apply pw_none.
  - split; [apply one_gap; reflexivity |]. split; [reflexivity |]. split; [reflexivity |]. eexists _, _. split; [reflexivity |]. vm_compute. repeat split; try lia. 
Qed.
