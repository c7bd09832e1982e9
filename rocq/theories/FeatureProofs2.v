From Coq Require Import ZifyBool ZifyNat ZifyN.
From Coq Require Import String.
From Coq Require Import List.
From Verif Require Import Features SpecLex SpecTrace SpecParser SpecSyntax SpecTraits SpecFeatures SpecToken LexBase TokenProofs KindProofs LexFacts LexTrace
  ParserProofs ParserProofs2 ParserProofs3 ParserProofs4 CompareProofs SyntaxProofs SyntaxTotal TraitsTotal CursorProofs FeatureProofs.
Open Scope N_scope.
Open Scope list_scope.

(* ---- adjacency ---- *)
Lemma ahead_later : forall x d cs, ahead x (d :: cs) -> forall b, In b cs -> coff d < coff b.
Proof.
  intros x d cs. revert x d. induction cs as [| e cs IH]; intros x d H b []; destruct (ahead_inv _ _ _ H) as (t & y & -> & Ad & K & L & A' & F1 & F2).
  - subst e. destruct (ahead_inv _ _ _ A') as (t' & y' & -> & _). cbn. rewrite (proj2 (proj2 (advance_fields _ _ _ Ad))). lia.
  - pose proof (IH y e A' b H0). destruct (ahead_inv _ _ _ A') as (t' & y' & -> & _). cbn in *. rewrite (proj2 (proj2 (advance_fields _ _ _ Ad))) in *. lia.
Qed.
Lemma adjacent_first : forall x a cs b, ahead x (a :: cs) -> In b cs -> adjacent a b -> exists r, cs = b :: r.
Proof.
  intros x a cs b H I Ad. destruct cs as [| d cs]; [destruct I |]. pose proof (ahead_adjacent _ _ _ _ H) as Ad'. destruct I as [-> | I]; [eauto |].
  destruct (ahead_inv _ _ _ H) as (t & y & -> & _ & _ & _ & A' & _). pose proof (ahead_later _ _ _ A' b I). unfold adjacent in *. cbn in *. lia.
Qed.
Lemma sees_adjacent : forall p a b rest, sees p (a :: b :: rest) -> adjacent a b ->
  exists sk cs, ahead (plex p) (sk ++ a :: b :: cs) /\ Forall (in_kinds (pskip p)) sk /\ ~ in_kinds (pskip p) a /\ ~ in_kinds (pskip p) b.
Proof.
  intros p a b rest Sp Ad. destruct (sees_next p _ _ Sp) as (sk & cs & A & F & St & E). exists sk.
  assert (I : In b cs) by (apply (kept_in (pskip p)); rewrite <- E; now left).
  destruct (ahead_app _ _ _ A) as (y & Ay & _). destruct (adjacent_first _ _ _ _ Ay I Ad) as (r & ->). exists r. repeat split; auto. apply (sees_kinds p _ b Sp). right. now left.
Qed.
(* after a token has been taken, the next one is adjacent iff nothing is skipped *)
Lemma unskipped_ok : forall k p cs c q, k <> K_Eof -> ahead (plex p) cs -> unskipped (parse_kind k) p = Some (Ok c, q) -> (exists rest, cs = c :: rest) /\ kind_of c = k /\ took p q [c].
Proof.
  intros k p cs c q N A E. unfold unskipped in E. destruct (parse_kind k (set_skip p KS_NONE)) as [[[c' | e] q'] |] eqn:E1; [| discriminate | discriminate]. injection E as -> <-.
  destruct (parse_kind_inv k (set_skip p KS_NONE) cs c q' N A E1) as (T & K).
  destruct (parse_single_kind _ _ (fun c => c) (set_skip p KS_NONE) cs _ _ (fun p o => kind_eof k p o N) A E1) as (sk & c' & rest & Ec & F & _ & _ & <- & _).
  destruct sk as [| z sk]; [| exfalso; exact (not_none z (Forall_inv F))]. split; [exists rest; exact Ec |]. split; [exact K |].
  apply (took_set_skip p q' KS_NONE); [exact T | intros z Hz; now apply not_none in Hz].
Qed.
Lemma unskipped_go : forall k p c rest, ahead (plex p) (c :: rest) -> kind_of c = k -> exists q, unskipped (parse_kind k) p = Some (Ok c, q) /\ took p q [c] /\ ahead (plex q) rest.
Proof.
  intros k p c rest A K. assert (Pk : peek_kind k (set_skip p KS_NONE) c = Some true).
  { unfold peek_kind. f_equal. apply tok_is_kind; [apply wf_of_kind; exact (ahead_kind _ _ A c (or_introl eq_refl)) | exact K]. }
  destruct (parse_single_ok _ _ (fun c => c) (set_skip p KS_NONE) [] c rest A (Forall_nil _) (not_none c) Pk) as (q & E & T & A'). fold (parse_kind k) in E. unfold unskipped. rewrite E.
  eexists. split; [reflexivity |]. split; [apply (took_set_skip p q KS_NONE); [exact T | intros z Hz; now apply not_none in Hz] | exact A'].
Qed.
Lemma unskipped_runs : forall k p cs, k <> K_Eof -> ahead (plex p) cs -> well_run 1 (unskipped (parse_kind k)) p.
Proof.
  intros k p cs N A. destruct (run_kind k (set_skip p KS_NONE) cs N A) as (r & q & E & (u & rest & A1 & A2 & L & (S1 & S2 & S3 & S4 & S5))). unfold well_run, unskipped. rewrite E.
  eexists _, _. split; [reflexivity |]. exists u, rest. split; [exact A1 |]. split; [exact A2 |]. split; [exact L |]. repeat split; auto.
Qed.
Lemma colon_colon_eq : forall p, parse_colon_colon p = bind (parse_kind K_Colon) (fun a => bind (unskipped (parse_kind K_Colon)) (fun b => ret (a, b))) p.
Proof.
  intro p. unfold parse_colon_colon, bind, unskipped, ret. destruct (parse_kind K_Colon p) as [[[a | e] p1] |]; try reflexivity.
  destruct (parse_kind K_Colon (set_skip p1 KS_NONE)) as [[[b | e] p2] |]; reflexivity.
Qed.

Section Pseudo.
  Context {V : Type} (m : list (text * V)) (ND : NoDup (map fst m)).
  Let Kn : is_name K_Ident.
  Proof. unfold is_name. now left. Qed.
  Lemma ident_look : forall p cs c, usable p -> ahead (plex p) cs -> In c cs -> kind_of c = K_Ident -> exists w, parse_str_lower c (lsrc (plex p)) = Some w /\ exists t, parse_str c (lsrc (plex p)) = Some t.
  Proof. intros p cs c (_ & Nr) A I K. destruct (Nr cs c A I) as (_ & (t & E1) & (w & E2)); [now rewrite K |]. eauto. Qed.
  (* the word that ends a pseudo-class or pseudo-element *)
  Definition tail_word {X} (x : X) : P (V * (X * cursor)) :=
    bind (unskipped (parse_kind K_Ident)) (fun ident p =>
    match look_up m p ident with None => None | Some (Some v) => Some (Ok (v, (x, ident)), p) | Some None => fail_text E_UNEXPECTED_IDENT ident p end).
  Lemma tail_ok : forall X (x : X) p cs v y c q, ahead (plex p) cs -> tail_word x p = Some (Ok (v, (y, c)), q) ->
    y = x /\ (exists rest, cs = c :: rest) /\ is_word K_Ident m (lsrc (plex p)) v c /\ took p q [c].
  Proof.
    intros X x p cs v y c q A E. unfold tail_word in E. apply bind_ok in E. destruct E as (ident & p1 & E1 & E2). destruct (unskipped_ok K_Ident p cs ident p1 ltac:(discriminate) A E1) as (R & K & T).
    unfold look_up in E2. destruct (parse_str_lower ident (lsrc (plex p1))) as [w |] eqn:Ew; [| discriminate]. destruct (map_get m w) as [v' |] eqn:G.
    - injection E2 as -> -> -> ->. split; [reflexivity |]. split; [exact R |]. split; [| exact T]. split; [exact K |]. exists w. rewrite <- (took_src _ _ _ T). split; [exact Ew | now apply (map_get_spec m ND)].
    - unfold fail_text in E2. destruct (parse_str _ _); discriminate.
  Qed.
  Lemma tail_go : forall X (x : X) p v c rest, ahead (plex p) (c :: rest) -> is_word K_Ident m (lsrc (plex p)) v c -> exists q, tail_word x p = Some (Ok (v, (x, c)), q) /\ took p q [c].
  Proof.
    intros X x p v c rest A (K & w & Ew & I). destruct (unskipped_go K_Ident p c rest A K) as (q & E & T & _). exists q. split; [| exact T]. unfold tail_word. rewrite (bind_go _ _ _ _ _ _ _ E).
    unfold look_up. rewrite (took_src _ _ _ T), Ew. apply (map_get_spec m ND) in I. now rewrite I.
  Qed.
  Lemma tail_runs : forall X (x : X) p cs, usable p -> ahead (plex p) cs -> well_run 1 (tail_word x) p.
  Proof.
    intros X x p cs U A. apply (run_bind _ _ _ _ 1); [exact (unskipped_runs K_Ident p cs ltac:(discriminate) A) |]. intros c q E M.
    destruct (unskipped_ok K_Ident p cs c q ltac:(discriminate) A E) as ((rest & ->) & K & T). destruct (ident_look p _ c U A (or_introl eq_refl) K) as (w & Ew & t & Et).
    destruct (moved_right _ _ _ M) as (cs' & A'). unfold well_run, look_up. rewrite (took_src _ _ _ T), Ew. destruct (map_get m w) as [v |].
    - eexists _, q. split; [reflexivity | exact (moved_refl q cs' A')].
    - unfold fail_text. rewrite (took_src _ _ _ T), Et. eexists _, q. split; [reflexivity | exact (moved_refl q cs' A')].
  Qed.
  Theorem class_phrases : reads_phrases (parse_pseudo_class m) (class_phrase m) class_cursors anything.
  Proof.
    intros p U. pose proof U as (Sk & Us & cs & A). split.
    - intros [v [colon ident]] q E. unfold parse_pseudo_class in E. apply bind_ok in E. destruct E as (c1 & p1 & E1 & E2).
      destruct (parse_single_kind _ _ (fun c => c) p cs _ _ (fun p o => kind_eof K_Colon p o ltac:(discriminate)) A E1) as (sk & c' & rest & Ec & F & St & Pk & -> & T & A').
      destruct (parse_kind_inv K_Colon p cs c' p1 ltac:(discriminate) A E1) as (_ & K). fold (tail_word c') in E2.
      destruct (tail_ok _ c' p1 rest v colon ident q A' E2) as (-> & (rest' & ->) & W & T'). rewrite (took_src _ _ _ T) in W. split.
      + split; [exact K |]. split; [exact W |]. subst cs. destruct (ahead_app _ _ _ A) as (y & Ay & _). exact (ahead_adjacent _ _ _ _ Ay).
      + exact (took_trans p p1 q _ _ T T').
    - intros [v [colon ident]] rest (K & W & Ad) _ Sp. cbn [class_cursors app] in Sp. destruct (sees_adjacent p _ _ _ Sp Ad) as (sk & cs' & A1 & F & St & _).
      assert (Pk : peek_kind K_Colon p colon = Some true) by (unfold peek_kind; f_equal; apply (tok_is_sees p _ colon _ Sp (or_introl eq_refl)); exact K).
      destruct (parse_single_ok _ _ (fun c => c) p sk colon (ident :: cs') A1 F St Pk) as (p1 & E1 & T & A'). fold (parse_kind K_Colon) in E1.
      rewrite <- (took_src _ _ _ T) in W. destruct (tail_go _ colon p1 v ident cs' A' W) as (q & E2 & T'). exists q. split; [| exact (took_trans p p1 q _ _ T T')].
      unfold parse_pseudo_class. rewrite (bind_go _ _ _ _ _ _ _ E1). exact E2.
  Qed.
  Theorem element_phrases : reads_phrases (parse_pseudo_element m) (element_phrase m) element_cursors anything.
  Proof.
    intros p U. pose proof U as (Sk & Us & cs & A). split.
    - intros [v [[x1 x2] ident]] q E. unfold parse_pseudo_element in E. apply bind_ok in E. destruct E as (colons & p2 & E1 & E2). rewrite colon_colon_eq in E1. apply bind_ok in E1. destruct E1 as (c1 & p1 & E1 & E3).
      apply bind_ok in E3. destruct E3 as (c2 & p2' & E3 & E4). injection E4 as <- <-.
      destruct (parse_single_kind _ _ (fun c => c) p cs _ _ (fun p o => kind_eof K_Colon p o ltac:(discriminate)) A E1) as (sk & c' & rest & Ec & F & St & Pk & -> & T & A').
      destruct (parse_kind_inv K_Colon p cs c' p1 ltac:(discriminate) A E1) as (_ & K). destruct (unskipped_ok K_Colon p1 rest c2 p2' ltac:(discriminate) A' E3) as ((rest2 & ->) & K2 & T2).
      assert (A2 : ahead (plex p2') rest2).
      { destruct (unskipped_go K_Colon p1 c2 rest2 A' K2) as (q' & E' & _ & A2). rewrite E3 in E'. injection E' as ->. exact A2. }
      fold (tail_word (c', c2)) in E2. destruct (tail_ok _ (c', c2) p2' rest2 v (x1, x2) ident q A2 E2) as (Ex & (rest' & ->) & W & T'). injection Ex as -> ->.
      rewrite (took_src _ _ _ T2), (took_src _ _ _ T) in W. subst cs. destruct (ahead_app _ _ _ A) as (y & Ay & _). split.
      + split; [exact K |]. split; [exact K2 |]. split; [exact W |]. split; [exact (ahead_adjacent _ _ _ _ Ay) |]. exact (ahead_adjacent _ _ _ _ A').
      + exact (took_trans p p1 q _ _ T (took_trans p1 p2' q _ _ T2 T')).
    - intros [v [[c1 c2] ident]] rest (K & K2 & W & Ad & Ad2) _ Sp. cbn [element_cursors app] in Sp. destruct (sees_adjacent p _ _ _ Sp Ad) as (sk & cs' & A1 & F & St & St2).
      assert (Pk : peek_kind K_Colon p c1 = Some true) by (unfold peek_kind; f_equal; apply (tok_is_sees p _ c1 _ Sp (or_introl eq_refl)); exact K).
      destruct (parse_single_ok _ _ (fun c => c) p sk c1 (c2 :: cs') A1 F St Pk) as (p1 & E1 & T & A'). fold (parse_kind K_Colon) in E1.
      destruct (unskipped_go K_Colon p1 c2 cs' A' K2) as (p2 & E2 & T2 & A2).
      assert (Ec : exists cs2, cs' = ident :: cs2).
      { apply (adjacent_first (plex p1) c2 cs' ident A'); [| exact Ad2]. destruct Sp as (cs0 & A0 & E0). rewrite (ahead_det _ _ A1 _ A0) in E0.
        change (c1 :: c2 :: ident :: rest = kept (pskip p) (sk ++ c1 :: c2 :: cs')) in E0. rewrite (kept_skipped _ _ _ F), (kept_cons _ _ _ St), (kept_cons _ _ _ St2) in E0. injection E0 as E0.
        apply (kept_in (pskip p)). rewrite <- E0. now left. }
      destruct Ec as (cs2 & ->). rewrite <- (took_src _ _ _ T), <- (took_src _ _ _ T2) in W. destruct (tail_go _ (c1, c2) p2 v ident cs2 A2 W) as (q & E3 & T').
      exists q. split; [| exact (took_trans p p1 q _ _ T (took_trans p1 p2 q _ _ T2 T'))].
      unfold parse_pseudo_element. assert (E12 : parse_colon_colon p = Some (Ok (c1, c2), p2)) by (rewrite colon_colon_eq, (bind_go _ _ _ _ _ _ _ E1), (bind_go _ _ _ _ _ _ _ E2); reflexivity).
      rewrite (bind_go _ _ _ _ _ _ _ E12). exact E3.
  Qed.
  Theorem class_runs : forall n, well_behaving 2 n (parse_pseudo_class m).
  Proof.
    intros n p cs U A L. apply (run_bind _ _ _ _ 1); [exact (run_kind K_Colon p cs ltac:(discriminate) A) |]. intros c q E M. destruct (moved_usable_len _ _ _ cs M U A) as (Uq & cs1 & A1 & _).
    exact (tail_runs _ c q cs1 Uq A1).
  Qed.
  Theorem element_runs : forall n, well_behaving 3 n (parse_pseudo_element m).
  Proof.
    intros n p cs U A L. apply (run_bind _ _ _ _ 2).
    - destruct (run_kind K_Colon p cs ltac:(discriminate) A) as (r & q & E & M). unfold well_run. rewrite colon_colon_eq. apply (run_bind _ _ _ _ 1); [exists r, q; auto |]. intros c q' _ M'.
      destruct (moved_right _ _ _ M') as (cs' & A'). apply (run_bind _ _ _ _ 1); [exact (unskipped_runs K_Colon q' cs' ltac:(discriminate) A') |]. intros c2 q2 _ M2. destruct (moved_right _ _ _ M2) as (cs2 & A2).
      exact (run_ret _ _ q2 cs2 A2).
    - intros c q E M. destruct (moved_usable_len _ _ _ cs M U A) as (Uq & cs1 & A1 & _). exact (tail_runs _ c q cs1 Uq A1).
  Qed.
End Pseudo.
