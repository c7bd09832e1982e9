(* Every text of a JSON value is read as that value. *)
From Coq Require Import ZifyBool ZifyNat ZifyN.
From Coq Require Import String.
From Coq Require Import List.
From Verif Require Import LspJson SpecLspFrame SpecLspJson SpecLspString SpecLspGrammar LspFrameProofs LspJsonProofs LspStringProofs.
Open Scope N_scope.
Open Scope list_scope.

Lemma blank_skipped : forall w l, blank w -> skip_ws (w ++ l) = skip_ws l.
Proof.
  intros w l H. induction H as [| c w Hc H IH]; [reflexivity |]. cbn [app skip_ws]. assert (E : json_ws c = true) by (cbn [In] in Hc; repeat (destruct Hc as [<- | Hc]; [reflexivity |]); destruct Hc). now rewrite E.
Qed.
Lemma blank_ends : forall w c l, blank w -> In c [44; 93; 125] -> number_ends (w ++ c :: l).
Proof.
  intros w c l H Hc. destruct H as [| x w Hx H]; cbn [app number_ends].
  - cbn [In] in Hc. repeat (destruct Hc as [<- | Hc]; [repeat split; discriminate |]). destruct Hc.
  - cbn [In] in Hx. repeat (destruct Hx as [<- | Hx]; [repeat split; discriminate |]). destruct Hx.
Qed.
Lemma digits_run : forall ds l, integer_digits ds -> number_ends l -> read_digits (ds ++ l) = (ds, l) /\ dec_digits ds = Some (value_of ds) /\
  exists d r, ds = d :: r /\ 48 <= d <= 57 /\ (d =? 48) && negb (Nat.eqb (length r) 0) = false.
Proof.
  intros ds l ((Hn & F) & Z_) E. split; [| split].
  - apply run_all; [eapply Forall_impl; [| exact F]; cbv beta; unfold is_ascii_digit; lia | destruct l; [exact I | apply E]].
  - unfold dec_digits. rewrite dec_digits_acc by exact F. f_equal; lia.
  - destruct ds as [| d r]; [congruence |]. inversion F; subst. exists d, r. split; [reflexivity |]. split; [assumption |]. destruct Z_ as [E1 | E1]; [injection E1 as -> ->; reflexivity | cbn [hd] in E1; replace (d =? 48) with false by lia; reflexivity].
Qed.
Lemma ends_plain : forall l, number_ends l -> match l with c :: _ => (c =? 46) || (c =? 101) || (c =? 69) | [] => false end = false.
Proof. intros [| c l] E; [reflexivity |]. destruct E as (_ & ? & ? & ?). lia. Qed.
Lemma number_positive : forall fl ds l, integer_digits ds -> value_of ds < 2 ^ 64 -> number_ends l -> read_number fl (ds ++ l) = Some (JInt (Z.of_N (value_of ds)), l).
Proof.
  intros fl ds l D V E. destruct (digits_run ds l D E) as (R & DD & d & r & -> & Hd & Z_). unfold read_number. cbn [app] in *. replace (d =? 45) with false by lia. cbv iota. rewrite R, Z_, (ends_plain l E), DD.
  replace (value_of (d :: r) <? U64) with true; [reflexivity |]. symmetry. apply N.ltb_lt. exact V.
Qed.
Lemma number_negative : forall fl ds l, integer_digits ds -> 0 < value_of ds <= 2 ^ 63 -> number_ends l -> read_number fl (45 :: ds ++ l) = Some (JInt (- Z.of_N (value_of ds)), l).
Proof.
  intros fl ds l D V E. destruct (digits_run ds l D E) as (R & DD & d & r & -> & Hd & Z_). unfold read_number. change (45 =? 45) with true. cbv iota. cbn [tl]. rewrite R, Z_, (ends_plain l E), DD.
  replace ((value_of (d :: r) =? 0) || (I64 <? value_of (d :: r))) with false; [reflexivity |]. change (2 ^ 63) with I64 in V. lia.
Qed.
(* the first character of a value *)
Lemma value_head : forall d t v, json_spelled d t v -> exists c r, t = c :: r /\ json_ws c = false /\ c <> 93 /\ c <> 125.
Proof.
  intros d t v []; try (eexists _, _; split; [reflexivity |]; repeat split; discriminate).
  destruct H as ((Hn & F) & _). destruct ds as [| x r]; [congruence |]. inversion F; subst. exists x, r. split; [reflexivity |]. unfold json_ws. lia.
Qed.
Lemma elements_head : forall d t l, elements_spelled d t l -> forall r, exists c r', skip_ws (t ++ r) = c :: r' /\ c <> 93.
Proof.
  intros d t l [d' w x w' v Hw Hv Hw' | d' w x w' v ts vs Hw Hv Hw' Ht] r; destruct (value_head _ _ _ Hv) as (c & y & -> & W & N & _); rewrite <- app_assoc, blank_skipped by exact Hw; cbn [app skip_ws]; rewrite W; eexists _, _; (split; [reflexivity | exact N]).
Qed.
Lemma members_head : forall d t l, members_spelled d t l -> forall r, exists c r', skip_ws (t ++ r) = c :: r' /\ c <> 125.
Proof. intros d t l [] r; rewrite <- app_assoc, blank_skipped by assumption; cbn [app skip_ws]; change (json_ws 34) with false; cbv iota; eexists _, _; (split; [reflexivity | discriminate]). Qed.

Section Read.
Variable fl : text -> option (json * text).
Definition value_reads (d : nat) (t : text) (v : json) : Prop := forall w l n D, blank w -> number_ends l -> (length t < n)%nat -> (d < D)%nat -> value_at fl n D (w ++ t ++ l) = Some (v, l).
Definition elements_read (d : nat) (t : text) (vs : list json) : Prop := forall l n D, (length t + 1 < n)%nat -> (d < D)%nat -> elems_at fl n D (t ++ 93 :: l) = Some (vs, l).
Definition members_read (d : nat) (t : text) (vs : list (text * json)) : Prop := forall l n D, (length t + 1 < n)%nat -> (d < D)%nat -> members_at fl n D (t ++ 125 :: l) = Some (vs, l).
Ltac start w l n Hw L := destruct n as [| n]; [lia |]; cbn [value_at]; rewrite blank_skipped by exact Hw.
Lemma spelled_reads : (forall d t v, json_spelled d t v -> value_reads d t v) /\ (forall d t vs, elements_spelled d t vs -> elements_read d t vs) /\ (forall d t vs, members_spelled d t vs -> members_read d t vs).
Proof.
  apply spelled_ind.
  - intros d w l n D Hw E L HD. start w l n Hw L. reflexivity.
  - intros d w l n D Hw E L HD. start w l n Hw L. reflexivity.
  - intros d w l n D Hw E L HD. start w l n Hw L. reflexivity.
  - intros d ds Hd V w l n D Hw E L HD. start w l n Hw L. pose proof (number_positive fl ds l Hd V E) as R. destruct (digits_run ds l Hd E) as (_ & _ & x & r & -> & Hx & _). cbn [app] in *. cbn [skip_ws].
    replace (json_ws x) with false by (unfold json_ws; lia). cbv iota. replace (x =? 110) with false by lia. replace (x =? 116) with false by lia. replace (x =? 102) with false by lia.
    replace ((x =? 45) || is_ascii_digit x) with true by (unfold is_ascii_digit; lia). exact R.
  - intros d ds Hd V w l n D Hw E L HD. start w l n Hw L. exact (number_negative fl ds l Hd V E).
  - intros d t s Hs w l n D Hw E L HD. start w l n Hw L. cbn [app skip_ws]. change (json_ws 34) with false. cbv iota. change (34 =? 110) with false. change (34 =? 116) with false. change (34 =? 102) with false. change ((34 =? 45) || is_ascii_digit 34) with false. change (34 =? 34) with true. cbv iota.
    rewrite <- app_assoc. cbn [app]. rewrite (read_spelled t s l Hs). reflexivity.
  - intros d x Hx w l n D Hw E L HD. start w l n Hw L. cbn [app skip_ws]. change (json_ws 91) with false. cbv iota. change (91 =? 110) with false. change (91 =? 116) with false. change (91 =? 102) with false. change ((91 =? 45) || is_ascii_digit 91) with false. change (91 =? 34) with false. change (91 =? 91) with true. cbv iota.
    replace (Nat.leb D 1) with false by (symmetry; apply Nat.leb_gt; lia). rewrite <- app_assoc, blank_skipped by exact Hx. reflexivity.
  - intros d t vs Ht IH w l n D Hw E L HD. start w l n Hw L. cbn [app skip_ws]. change (json_ws 91) with false. cbv iota. change (91 =? 110) with false. change (91 =? 116) with false. change (91 =? 102) with false. change ((91 =? 45) || is_ascii_digit 91) with false. change (91 =? 34) with false. change (91 =? 91) with true. cbv iota.
    replace (Nat.leb D 1) with false by (symmetry; apply Nat.leb_gt; lia). rewrite <- app_assoc. cbn [app]. destruct (elements_head d t vs Ht (93 :: l)) as (c & r' & -> & N). replace (c =? 93) with false by lia.
    cbn [length] in L. rewrite app_length in L. cbn [length] in L. rewrite (IH l n (D - 1)%nat) by lia. reflexivity.
  - intros d x Hx w l n D Hw E L HD. start w l n Hw L. cbn [app skip_ws]. change (json_ws 123) with false. cbv iota. change (123 =? 110) with false. change (123 =? 116) with false. change (123 =? 102) with false. change ((123 =? 45) || is_ascii_digit 123) with false. change (123 =? 34) with false. change (123 =? 91) with false. change (123 =? 123) with true. cbv iota.
    replace (Nat.leb D 1) with false by (symmetry; apply Nat.leb_gt; lia). rewrite <- app_assoc, blank_skipped by exact Hx. reflexivity.
  - intros d t vs Ht IH w l n D Hw E L HD. start w l n Hw L. cbn [app skip_ws]. change (json_ws 123) with false. cbv iota. change (123 =? 110) with false. change (123 =? 116) with false. change (123 =? 102) with false. change ((123 =? 45) || is_ascii_digit 123) with false. change (123 =? 34) with false. change (123 =? 91) with false. change (123 =? 123) with true. cbv iota.
    replace (Nat.leb D 1) with false by (symmetry; apply Nat.leb_gt; lia). rewrite <- app_assoc. cbn [app]. destruct (members_head d t vs Ht (125 :: l)) as (c & r' & -> & N). replace (c =? 125) with false by lia.
    cbn [length] in L. rewrite app_length in L. cbn [length] in L. rewrite (IH l n (D - 1)%nat) by lia. reflexivity.
  - intros d w t w' v Hw Ht IH Hw' l n D L HD. destruct n as [| n]; [lia |]. rewrite !app_length in L. cbn [elems_at]. rewrite <- !app_assoc. rewrite (IH w (w' ++ 93 :: l) n D Hw) by (try lia; apply blank_ends; cbn; tauto).
    rewrite blank_skipped by exact Hw'. reflexivity.
  - intros d w t w' v ts vs Hw Ht IH Hw' Hts IHs l n D L HD. destruct n as [| n]; [lia |]. rewrite !app_length in L. cbn [length] in L. cbn [elems_at]. rewrite <- !app_assoc. cbn [app]. rewrite (IH w (w' ++ 44 :: ts ++ 93 :: l) n D Hw) by (try lia; apply blank_ends; cbn; tauto).
    rewrite blank_skipped by exact Hw'. cbn [skip_ws]. change (json_ws 44) with false. cbv iota. change (44 =? 93) with false. change (44 =? 44) with true. cbv iota. rewrite (IHs l n D) by lia. reflexivity.
  - intros d w k s w1 w2 t w3 v Hw Hk H1 H2 Ht IH H3 l n D L HD. destruct n as [| n]; [lia |]. repeat (rewrite !app_length in L; cbn [length] in L). cbn [members_at]. repeat (rewrite <- !app_assoc; cbn [app]). rewrite blank_skipped by exact Hw. cbn [skip_ws]. change (json_ws 34) with false. cbv iota. change (34 =? 34) with true. cbv iota.
    rewrite (read_spelled k s _ Hk). rewrite blank_skipped by exact H1. cbn [skip_ws]. change (json_ws 58) with false. cbv iota. change (58 =? 58) with true. cbv iota.
    rewrite (IH w2 (w3 ++ 125 :: l) n D H2) by (try lia; apply blank_ends; cbn; tauto). rewrite blank_skipped by exact H3. reflexivity.
  - intros d w k s w1 w2 t w3 v ts vs Hw Hk H1 H2 Ht IH H3 Hts IHs l n D L HD. destruct n as [| n]; [lia |]. repeat (rewrite !app_length in L; cbn [length] in L). cbn [members_at]. repeat (rewrite <- !app_assoc; cbn [app]). rewrite blank_skipped by exact Hw. cbn [skip_ws]. change (json_ws 34) with false. cbv iota. change (34 =? 34) with true. cbv iota.
    rewrite (read_spelled k s _ Hk). rewrite blank_skipped by exact H1. cbn [skip_ws]. change (json_ws 58) with false. cbv iota. change (58 =? 58) with true. cbv iota.
    rewrite (IH w2 (w3 ++ 44 :: ts ++ 125 :: l) n D H2) by (try lia; apply blank_ends; cbn; tauto). rewrite blank_skipped by exact H3. cbn [skip_ws]. change (json_ws 44) with false. cbv iota. change (44 =? 125) with false. change (44 =? 44) with true. cbv iota. rewrite (IHs l n D) by lia. reflexivity.
Qed.
End Read.
Lemma text_read : forall fl w t w' v, blank w -> json_spelled 127 t v -> blank w' -> valid_text (w ++ t ++ w') -> read_json fl (utf8_encode (w ++ t ++ w')) = Some v.
Proof.
  intros fl w t w' v Hw Ht Hw' V. unfold read_json. rewrite utf8_round by exact V.
  assert (E : number_ends w') by (destruct Hw' as [| x w' Hx H]; [exact I |]; cbn [In] in Hx; repeat (destruct Hx as [<- | Hx]; [repeat split; discriminate |]); destruct Hx).
  rewrite (proj1 (spelled_reads fl) 127%nat t v Ht w w' _ DEPTH Hw E) by (unfold DEPTH; rewrite ?app_length; lia).
  pose proof (blank_skipped w' [] Hw') as B. rewrite app_nil_r in B. rewrite B. reflexivity.
Qed.
