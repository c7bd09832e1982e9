(* The JSON text of a value reads back as the value. *)
From Coq Require Import ZifyBool ZifyNat ZifyN.
From Coq Require Import String Ascii.
From Coq Require Import List.
From Verif Require Import LspJson SpecLspJson SpecLspFrame SpecLspMessage LspFrameProofs LspMessageProofs.
Open Scope N_scope.
Open Scope list_scope.
Ltac Zify.zify_post_hook ::= Z.div_mod_to_equations.

(* ---- UTF-8 ---- *)
Lemma utf8_step : forall c l, valid_char c = true -> utf8_ok (utf8_char c ++ l) = utf8_ok l /\ utf8_chars (utf8_char c ++ l) = c :: utf8_chars l.
Proof.
  intros c l V. unfold valid_char in V. unfold utf8_char. destruct (c <? 128) eqn:B1; [split; cbn [app utf8_ok utf8_chars]; now rewrite B1 |].
  destruct (c <? 2048) eqn:B2.
  { cbn [app utf8_ok utf8_chars]. assert (H1 : (192 + c / 64 <? 128) = false) by lia. assert (H2 : between 194 (192 + c / 64) 223 = true) by (unfold between; lia). assert (H3 : cont (128 + c mod 64) = true) by (unfold cont; lia).
    assert (H4 : (192 + c / 64 <? 224) = true) by lia. rewrite H1, H2, H3, H4. split; [reflexivity |]. f_equal. lia. }
  destruct (c <? 65536) eqn:B3.
  { cbn [app utf8_ok utf8_chars]. set (b := 224 + c / 4096) in *. set (x := 128 + c / 64 mod 64) in *. set (y := 128 + c mod 64) in *.
    assert (Hb : 224 <= b <= 239) by (subst b; lia). assert (Hx : 128 <= x <= 191) by (subst x; lia). assert (Hy : 128 <= y <= 191) by (subst y; lia).
    assert (Hv : (b - 224) * 4096 + (x - 128) * 64 + (y - 128) = c) by (subst b x y; lia).
    assert (H1 : (b <? 128) = false) by lia. assert (H2 : between 194 b 223 = false) by (unfold between; lia). assert (H4 : (b <? 224) = false) by lia. assert (H5 : (b <? 240) = true) by lia.
    assert (Cx : cont x = true) by (unfold cont; lia). assert (Cy : cont y = true) by (unfold cont; lia). rewrite H1, H2, H4, H5, Cx, Cy. split; [| now rewrite Hv].
    destruct (b =? 224) eqn:E1; [assert (K : between 160 x 191 = true) by (unfold between; lia); now rewrite K |]. destruct (b =? 237) eqn:E2; [assert (K : between 128 x 159 = true) by (unfold between; lia); now rewrite K |].
    assert (K : between 225 b 239 = true) by (unfold between; lia). now rewrite K. }
  cbn [app utf8_ok utf8_chars]. set (b := 240 + c / 262144) in *. set (w := 128 + c / 4096 mod 64) in *. set (x := 128 + c / 64 mod 64) in *. set (y := 128 + c mod 64) in *.
  assert (Hb : 240 <= b <= 244) by (subst b; lia). assert (Hw : 128 <= w <= 191) by (subst w; lia). assert (Hx : 128 <= x <= 191) by (subst x; lia). assert (Hy : 128 <= y <= 191) by (subst y; lia).
  assert (Hv : (b - 240) * 262144 + (w - 128) * 4096 + (x - 128) * 64 + (y - 128) = c) by (subst b w x y; lia).
  assert (H1 : (b <? 128) = false) by lia. assert (H2 : between 194 b 223 = false) by (unfold between; lia). assert (H4 : (b <? 224) = false) by lia. assert (H5 : (b <? 240) = false) by lia.
  assert (E1 : (b =? 224) = false) by lia. assert (E2 : (b =? 237) = false) by lia. assert (E3 : between 225 b 239 = false) by (unfold between; lia).
  assert (Cw : cont w = true) by (unfold cont; lia). assert (Cx : cont x = true) by (unfold cont; lia). assert (Cy : cont y = true) by (unfold cont; lia). rewrite H1, H2, H4, H5, E1, E2, E3, Cw, Cx, Cy. split; [| now rewrite Hv].
  destruct (b =? 240) eqn:E4; [assert (K : between 144 w 191 = true) by (unfold between; lia); now rewrite K |]. destruct (b =? 244) eqn:E5; [assert (K : between 128 w 143 = true) by (unfold between; lia); now rewrite K |].
  assert (K : between 241 b 243 = true) by (unfold between; lia). now rewrite K.
Qed.
Lemma utf8_round : forall t, valid_text t -> utf8_decode (utf8_encode t) = Some t.
Proof.
  intros t F. unfold utf8_decode. assert (H : utf8_ok (utf8_encode t) = true /\ utf8_chars (utf8_encode t) = t).
  { induction F as [| c t V F [IH1 IH2]]; [now split |]. unfold utf8_encode. cbn [flat_map]. fold (utf8_encode t). destruct (utf8_step c (utf8_encode t) V) as [-> ->]. split; [exact IH1 | now rewrite IH2]. }
  destruct H as [-> ->]. reflexivity.
Qed.

(* ---- strings ---- *)
Lemma hex_round : forall n, n < 16 -> hex_val (hex_digit n) = Some n.
Proof.
  intros n L. unfold hex_digit, hex_val. destruct (n <? 10) eqn:B.
  - assert (K : is_ascii_digit (48 + n) = true) by (unfold is_ascii_digit; lia). rewrite K. f_equal. lia.
  - assert (K : is_ascii_digit (87 + n) = false) by (unfold is_ascii_digit; lia). assert (K2 : between 97 (87 + n) 102 = true) by (unfold between; lia). rewrite K, K2. f_equal. lia.
Qed.
Lemma read_escaped : forall c l, read_str (escape_char c ++ l) = put c (read_str l).
Proof.
  intros c l. unfold escape_char.
  destruct (c =? 34) eqn:B1; [apply N.eqb_eq in B1; subst c; reflexivity |]. destruct (c =? 92) eqn:B2; [apply N.eqb_eq in B2; subst c; reflexivity |].
  destruct (c =? 8) eqn:B3; [apply N.eqb_eq in B3; subst c; reflexivity |]. destruct (c =? 12) eqn:B4; [apply N.eqb_eq in B4; subst c; reflexivity |].
  destruct (c =? 10) eqn:B5; [apply N.eqb_eq in B5; subst c; reflexivity |]. destruct (c =? 13) eqn:B6; [apply N.eqb_eq in B6; subst c; reflexivity |].
  destruct (c =? 9) eqn:B7; [apply N.eqb_eq in B7; subst c; reflexivity |]. destruct (c <? 32) eqn:B8.
  - cbn [app read_str]. change (92 =? 34) with false. change (92 <? 32) with false. change (92 =? 92) with true. change (117 =? 117) with true. cbn match. unfold hex4. change (hex_val 48) with (Some 0).
    rewrite !hex_round by lia. assert (E : 0 * 4096 + 0 * 256 + c / 16 * 16 + c mod 16 = c) by lia. cbn match. rewrite E. assert (K1 : between 56320 c 57343 = false) by (unfold between; lia). assert (K2 : between 55296 c 56319 = false) by (unfold between; lia). now rewrite K1, K2.
  - cbn [app read_str]. now rewrite B1, B8, B2.
Qed.
Lemma read_shown_str : forall s l, read_str (flat_map escape_char s ++ 34 :: l) = Some (s, l).
Proof. induction s as [| c s IH]; intro l; [reflexivity |]. cbn [flat_map]. rewrite <- app_assoc, read_escaped, IH. reflexivity. Qed.

(* ---- numbers ---- *)
Definition number_ends (l : text) : Prop := match l with [] => True | c :: _ => is_ascii_digit c = false /\ c <> 46 /\ c <> 101 /\ c <> 69 end.
Lemma dec_fuel_head : forall n x, (N.to_nat (N.log2 x) < n)%nat -> exists d ds, dec_fuel n x = d :: ds /\ 48 <= d <= 57 /\ (d = 48 -> x = 0 /\ ds = []).
Proof.
  induction n as [| n IH]; intros x L; [lia |]. cbn [dec_fuel]. destruct (x <? 10) eqn:B; [exists (48 + x), []; repeat split; lia |].
  assert (L' : (N.to_nat (N.log2 (x / 10)) < n)%nat).
  { assert (Q : N.log2 (x / 10) < N.log2 x); [| lia]. apply N.lt_le_trans with (N.succ (N.log2 (x / 10))); [lia |]. rewrite <- N.log2_double by lia. apply N.log2_le_mono. lia. }
  destruct (IH _ L') as (d & ds & E & R & Z). rewrite E. exists d, (ds ++ [48 + x mod 10]). split; [reflexivity |]. split; [exact R |]. intro D. destruct (Z D). lia.
Qed.
Lemma dec_head : forall x, exists d ds, dec x = d :: ds /\ 48 <= d <= 57 /\ (d = 48 -> ds = []).
Proof. intro x. destruct (dec_fuel_head (S (N.to_nat (N.log2 x))) x) as (d & ds & E & R & Z); [lia |]. exists d, ds. split; [exact E |]. split; [exact R |]. intro D. now destruct (Z D). Qed.
Lemma dec_digits_dec : forall x, dec_digits (dec x) = Some x.
Proof. intro x. destruct (dec_spec x) as [[_ F] V]. unfold dec_digits. rewrite dec_digits_acc by exact F. f_equal. rewrite V. lia. Qed.
Lemma dec_run : forall x l, number_ends l -> read_digits (dec x ++ l) = (dec x, l).
Proof.
  intros x l E. destruct (dec_spec x) as [[_ F] _]. apply run_all; [eapply Forall_impl; [| exact F]; cbv beta; unfold is_ascii_digit; lia |]. destruct l; [exact I | apply E].
Qed.
Lemma read_shown_int : forall fl z l, (- 2 ^ 63 <= z < 2 ^ 64)%Z -> number_ends l -> read_number fl (show_int z ++ l) = Some (JInt z, l).
Proof.
  intros fl z l R E. unfold read_number, show_int. destruct (z <? 0)%Z eqn:B.
  - cbn [app tl]. change (45 =? 45) with true. cbn match. rewrite dec_run by exact E. destruct (dec_head (Z.to_N (- z))) as (d & ds & Q & Rd & Z0). pose proof (dec_digits_dec (Z.to_N (- z))) as DD. rewrite Q in *.
    assert (K : (d =? 48) && negb (length ds =? 0)%nat = false) by (destruct (d =? 48) eqn:D; [apply N.eqb_eq in D; rewrite (Z0 D); reflexivity | reflexivity]). rewrite K.
    assert (K2 : match l with c :: _ => (c =? 46) || (c =? 101) || (c =? 69) | [] => false end = false) by (destruct l; [reflexivity | destruct E as (_ & ? & ? & ?); lia]). rewrite K2, DD.
    assert (K3 : (Z.to_N (- z) =? 0) || (I64 <? Z.to_N (- z)) = false) by (unfold I64; lia). rewrite K3. do 3 f_equal. lia.
  - destruct (dec_head (Z.to_N z)) as (d & ds & Q & Rd & Z0). pose proof (dec_digits_dec (Z.to_N z)) as DD. pose proof (dec_run (Z.to_N z) l E) as DR. rewrite Q in *. cbn [app] in *.
    assert (D45 : (d =? 45) = false) by lia. rewrite D45, DR.
    assert (K : (d =? 48) && negb (length ds =? 0)%nat = false) by (destruct (d =? 48) eqn:D; [apply N.eqb_eq in D; rewrite (Z0 D); reflexivity | reflexivity]). rewrite K.
    assert (K2 : match l with c :: _ => (c =? 46) || (c =? 101) || (c =? 69) | [] => false end = false) by (destruct l; [reflexivity | destruct E as (_ & ? & ? & ?); lia]). rewrite K2, DD.
    assert (K3 : (Z.to_N z <? U64) = true) by (unfold U64; lia). rewrite K3. do 3 f_equal. lia.
Qed.

(* ---- values ---- *)
Definition starts (l : text) : Prop := match l with [] => False | c :: _ => json_ws c = false /\ c <> 93 /\ c <> 125 /\ c <> 44 end.
Lemma skip_ws_starts : forall l, starts l -> skip_ws l = l.
Proof. intros [| c l] S; [easy |]. cbn [skip_ws]. destruct S as [-> _]. reflexivity. Qed.
Lemma starts_app : forall l r, starts l -> starts (l ++ r).
Proof. now intros [| c l] r S. Qed.
Lemma show_int_starts : forall z, starts (show_int z).
Proof.
  intro z. unfold show_int. destruct (z <? 0)%Z; [cbn; repeat split; discriminate |]. destruct (dec_head (Z.to_N z)) as (d & ds & -> & R & _). unfold starts, json_ws. repeat split; lia.
Qed.
Lemma show_starts : forall sf d v, plain_json d v -> starts (show sf v).
Proof. intros sf d v P. destruct v as [| [] | z | f | s | l | l]; try (cbn; repeat split; discriminate); [apply show_int_starts | destruct d; destruct P]. Qed.
Lemma join_cons : forall x y r, join (x :: y :: r) = x ++ 44 :: join (y :: r).
Proof. reflexivity. Qed.
Lemma join_one : forall x, join [x] = x.
Proof. reflexivity. Qed.
Section Values.
  Context (sf : N -> text) (fl : text -> option (json * text)).
  Definition reads_value (d : nat) (v : json) : Prop := forall n D l, (length (show sf v) <= n)%nat -> (d < D)%nat -> number_ends l -> value_at fl n D (show sf v ++ l) = Some (v, l).
  Lemma elems_read : forall d vs, vs <> [] -> Forall (plain_json d) vs -> Forall (reads_value d) vs -> forall n D l, (length (join (map (show sf) vs)) < n)%nat -> (d < D)%nat ->
    elems_at fl n D (join (map (show sf) vs) ++ 93 :: l) = Some (vs, l).
  Proof.
    intros d vs. induction vs as [| v vs IH]; intros NE P R n D l L Dp; [easy |]. inversion P as [| ? ? Pv P']; inversion R as [| ? ? Rv R']; subst. destruct n as [| n]; [lia |].
    destruct vs as [| w vs]; cbn [map] in *.
    - rewrite join_one in *. cbn [elems_at]. rewrite Rv; [reflexivity | lia | exact Dp | cbn; repeat split; discriminate].
    - rewrite join_cons in *. rewrite app_length in L. cbn [length] in L. rewrite <- app_assoc, <- app_comm_cons. cbn [elems_at]. rewrite Rv; [| lia | exact Dp | cbn; repeat split; discriminate].
      cbn [skip_ws]. change (json_ws 44) with false. cbn match. change (44 =? 93) with false. change (44 =? 44) with true. cbn match.
      rewrite IH; [reflexivity | discriminate | exact P' | exact R' | lia | exact Dp].
  Qed.
  Definition show_member (kv : text * json) : text := show_str (fst kv) ++ 58 :: show sf (snd kv).
  Lemma member_shape : forall k v l, show_member (k, v) ++ l = 34 :: flat_map escape_char k ++ 34 :: 58 :: show sf v ++ l.
  Proof. intros k v l. unfold show_member, show_str. cbn [fst snd app]. rewrite <- !app_assoc. reflexivity. Qed.
  Lemma members_read : forall d kvs, kvs <> [] -> Forall (fun kv => reads_value d (snd kv)) kvs -> forall n D l, (length (join (map show_member kvs)) < n)%nat -> (d < D)%nat ->
    members_at fl n D (join (map show_member kvs) ++ 125 :: l) = Some (kvs, l).
  Proof.
    intros d kvs. induction kvs as [| [k v] kvs IH]; intros NE R n D l L Dp; [easy |]. inversion R as [| ? ? Rv R']; subst. cbn [snd] in Rv. destruct n as [| n]; [lia |].
    assert (Lm : (length (show sf v) < length (show_member (k, v)))%nat) by (unfold show_member; rewrite app_length; cbn [fst snd length]; lia).
    destruct kvs as [| w kvs]; cbn [map] in *.
    - rewrite join_one in *. rewrite member_shape. cbn [members_at skip_ws]. change (json_ws 34) with false. change (34 =? 34) with true. cbn match. rewrite read_shown_str. cbn [skip_ws]. change (json_ws 58) with false. change (58 =? 58) with true. cbn match.
      rewrite Rv; [reflexivity | lia | exact Dp | cbn; repeat split; discriminate].
    - rewrite join_cons in *. rewrite app_length in L. cbn [length] in L. rewrite <- app_assoc, member_shape. cbn [members_at skip_ws]. change (json_ws 34) with false. change (34 =? 34) with true. cbn match. rewrite read_shown_str. cbn [skip_ws]. change (json_ws 58) with false. change (58 =? 58) with true. cbn match.
      rewrite <- app_comm_cons. rewrite Rv; [| lia | exact Dp | cbn; repeat split; discriminate].
      cbn [skip_ws]. change (json_ws 44) with false. cbn match. change (44 =? 125) with false. change (44 =? 44) with true. cbn match.
      rewrite IH; [reflexivity | discriminate | exact R' | lia | exact Dp].
  Qed.
  Lemma join_head : forall x r, x <> [] -> exists c l, join (x :: r) = c :: l /\ exists l', x = c :: l'.
  Proof. intros [| c x] r NE; [easy |]. destruct r; [exists c, x | exists c, (x ++ 44 :: join (l :: r))]; eauto. Qed.
  Lemma value_int : forall n D z l, (- 2 ^ 63 <= z < 2 ^ 64)%Z -> number_ends l -> value_at fl (S n) D (show_int z ++ l) = Some (JInt z, l).
  Proof.
    intros n D z l P E. pose proof (read_shown_int fl z l P E) as RN. cbn [value_at]. rewrite skip_ws_starts by (apply starts_app, show_int_starts).
    unfold show_int in *. destruct (z <? 0)%Z eqn:B; [exact RN |]. destruct (dec_head (Z.to_N z)) as (c & ds & Q & R & _). rewrite Q in *. cbn [app] in *.
    assert (K1 : (c =? 110) = false) by lia. assert (K2 : (c =? 116) = false) by lia. assert (K3 : (c =? 102) = false) by lia. assert (K4 : (c =? 45) || is_ascii_digit c = true) by (unfold is_ascii_digit; lia).
    rewrite K1, K2, K3, K4. exact RN.
  Qed.
  Lemma not_closing : forall x c l r, starts x -> join (x :: r) = c :: l -> skip_ws (c :: l) = c :: l /\ (c =? 93) = false /\ (c =? 125) = false.
  Proof.
    intros x c l r S J. destruct x as [| a x]; [easy |]. assert (a = c) by (destruct r; cbn in J; congruence). subst a. destruct S as (W & N1 & N2 & _). cbn [skip_ws]. rewrite W. repeat split; lia.
  Qed.
  Lemma skip_ws_head : forall c l m, skip_ws (c :: l) = c :: l -> skip_ws (c :: l ++ m) = c :: l ++ m.
  Proof. intros c l m H. cbn [skip_ws] in *. destruct (json_ws c) eqn:J; [| reflexivity]. exfalso. assert (Le : forall l, (length (skip_ws l) <= length l)%nat) by (clear; induction l as [| c l IH]; cbn [skip_ws]; [lia |]; destruct (json_ws c); cbn [length]; lia).
    specialize (Le l). rewrite H in Le. cbn [length] in Le. lia. Qed.
  Lemma shown_reads : forall d v, plain_json d v -> reads_value d v.
  Proof.
    induction d as [| d IH]; intros v P n D l L Dp E;
      (destruct n as [| n]; [exfalso; pose proof (show_starts sf _ _ P) as S; destruct (show sf v); [exact S | cbn in L; lia] |]);
      (destruct v as [| [] | z | f | s | vs | kvs]; try reflexivity; try (now destruct P); try (now apply value_int);
        try (cbn [show]; unfold show_str; cbn [app]; rewrite <- app_assoc; cbn [app value_at skip_ws]; change (json_ws 34) with false; cbv iota; change (34 =? 110) with false; change (34 =? 116) with false; change (34 =? 102) with false;
             change ((34 =? 45) || is_ascii_digit 34) with false; change (34 =? 34) with true; cbv iota; now rewrite read_shown_str)).
    - cbn [show] in *. cbn [length] in L. rewrite app_length in L. cbn [length] in L. cbn [app]. rewrite <- app_assoc. cbn [app]. cbn [value_at skip_ws]. change (json_ws 91) with false. cbv iota. change (91 =? 110) with false. change (91 =? 116) with false. change (91 =? 102) with false.
      change ((91 =? 45) || is_ascii_digit 91) with false. change (91 =? 34) with false. change (91 =? 91) with true. cbv iota. assert (Dl : (D <=? 1)%nat = false) by lia. rewrite Dl. destruct vs as [| v vs]; [reflexivity |].
      cbn [plain_json] in P. pose proof (Forall_inv P) as Pv. pose proof (show_starts sf _ _ Pv) as Sv. destruct (join_head (show sf v) (map (show sf) vs)) as (c & m & J & _); [intro Z; rewrite Z in Sv; exact Sv |].
      destruct (not_closing _ _ _ _ Sv J) as (W & N1 & _). assert (ER := elems_read d (v :: vs) ltac:(discriminate) P (Forall_impl _ IH P) n (D - 1) l). cbn [map] in *. rewrite J in *. cbn [app] in *.
      rewrite (skip_ws_head _ _ _ W), N1, ER by lia. reflexivity.
    - cbn [show] in *. cbn [length] in L. rewrite app_length in L. cbn [length] in L. cbn [app]. rewrite <- app_assoc. cbn [app]. cbn [value_at skip_ws]. change (json_ws 123) with false. cbv iota. change (123 =? 110) with false. change (123 =? 116) with false. change (123 =? 102) with false.
      change ((123 =? 45) || is_ascii_digit 123) with false. change (123 =? 34) with false. change (123 =? 91) with false. change (123 =? 123) with true. cbv iota. assert (Dl : (D <=? 1)%nat = false) by lia. rewrite Dl. destruct kvs as [| [k v] kvs]; [reflexivity |].
      cbn [plain_json] in P. change (fun kv : text * json => show_str (fst kv) ++ 58 :: show sf (snd kv)) with show_member in *. change (map show_member ((k, v) :: kvs)) with (show_member (k, v) :: map show_member kvs) in *.
      assert (Sv : starts (show_member (k, v))) by (cbn; repeat split; discriminate). destruct (join_head (show_member (k, v)) (map show_member kvs)) as (c & m & J & _); [discriminate |].
      destruct (not_closing _ _ _ _ Sv J) as (W & _ & N1).
      assert (ER := members_read d ((k, v) :: kvs) ltac:(discriminate) (Forall_impl _ (fun kv H => IH (snd kv) (proj2 H)) P) n (D - 1) l). change (map show_member ((k, v) :: kvs)) with (show_member (k, v) :: map show_member kvs) in ER. rewrite J in *. cbn [app] in *.
      rewrite (skip_ws_head _ _ _ W), N1, ER by lia. reflexivity.
  Qed.
End Values.

Lemma show_valid : forall sf d v, plain_json d v -> valid_text (show sf v).
Proof.
  assert (Vd : forall x, valid_text (dec x)).
  { intro x. destruct (dec_spec x) as [[_ F] _]. eapply Forall_impl; [| exact F]. cbv beta. unfold valid_char. lia. }
  assert (Vs : forall s, valid_text s -> valid_text (show_str s)).
  { intros s F. unfold show_str. constructor; [reflexivity |]. apply Forall_app. split; [| repeat constructor]. induction F as [| c s V F IH]; [constructor |]. cbn [flat_map]. apply Forall_app. split; [| exact IH]. unfold escape_char.
    repeat match goal with |- context [if ?b then _ else _] => destruct b eqn:? end; repeat constructor; auto; unfold hex_digit, valid_char in *; repeat match goal with |- context [if ?b then _ else _] => destruct b eqn:? end; lia. }
  assert (Vj : forall l, Forall valid_text l -> valid_text (join l)).
  { intros l F. induction F as [| x l Vx F IH]; [constructor |]. destruct l as [| y l]; [exact Vx |]. rewrite join_cons. apply Forall_app. split; [exact Vx |]. constructor; [reflexivity | exact IH]. }
  intros sf. induction d as [| d IH]; intros v P; (destruct v as [| [] | z | f | s | vs | kvs]; try (now destruct P); cbn [show]; try (repeat constructor; fail); try (unfold show_int; destruct (z <? 0)%Z; [constructor; [reflexivity |] |]; apply Vd); try (now apply Vs)).
  - cbn [plain_json] in P. constructor; [reflexivity |]. apply Forall_app. split; [| repeat constructor]. apply Vj. apply Forall_map. eapply Forall_impl; [| exact P]. exact IH.
  - cbn [plain_json] in P. constructor; [reflexivity |]. apply Forall_app. split; [| repeat constructor]. apply Vj. apply Forall_map. eapply Forall_impl; [| exact P]. intros [k v] [Vk Pv]. cbn [fst snd] in *. apply Forall_app. split; [now apply Vs |]. constructor; [reflexivity | now apply IH].
Qed.
Lemma json_round : forall sf fl v, plain_json 127 v -> read_json fl (utf8_encode (show sf v)) = Some v.
Proof.
  intros sf fl v P. unfold read_json. rewrite utf8_round by (apply (show_valid _ _ _ P)).
  pose proof (shown_reads sf fl 127 v P (S (length (show sf v))) DEPTH [] ltac:(lia) ltac:(unfold DEPTH; lia) I) as R. rewrite app_nil_r in R. now rewrite R.
Qed.

Lemma plain_mono : forall d v, plain_json d v -> plain_json (S d) v.
Proof.
  induction d as [| d IH]; intros v P; (destruct v as [| [] | z | f | s | vs | kvs]; try exact P; try (now destruct P)).
  - cbn [plain_json] in P |- *. eapply Forall_impl; [| exact P]. exact IH.
  - cbn [plain_json] in P |- *. eapply Forall_impl; [| exact P]. intros [k v] [Vk Pv]. split; [exact Vk | now apply IH].
Qed.
Lemma plain_le : forall d d' v, (d <= d')%nat -> plain_json d v -> plain_json d' v.
Proof. intros d d' v L P. induction L; [exact P | now apply plain_mono]. Qed.
Lemma chars_valid : forall s, valid_text (chars s).
Proof. induction s as [| a s IH]; [constructor |]. constructor; [| exact IH]. unfold valid_char. pose proof (Ascii.N_ascii_bounded a). lia. Qed.
Lemma plain_obj : forall d l, Forall (fun kv => valid_text (fst kv) /\ plain_json d (snd kv)) l -> plain_json (S d) (JObj l).
Proof. intros d l H. exact H. Qed.
Lemma plain_int : forall d z, (- 2 ^ 63 <= z < 2 ^ 64)%Z -> plain_json d (JInt z).
Proof. intros [] z H; exact H. Qed.
Lemma plain_str : forall d s, valid_text s -> plain_json d (JStr s).
Proof. intros [] z H; exact H. Qed.
Lemma plain_null : forall d, plain_json d JNull.
Proof. intros []; exact I. Qed.
Lemma message_plain : forall m, readable m -> plain_message m -> plain_json 127 (to_json m).
Proof.
  assert (Id : forall i d, id_ok i -> (match i with IdString s => valid_text s | _ => True end) -> plain_json d (id_json i)).
  { intros [z | s] d O V; destruct d; cbn [id_json plain_json id_ok] in *; unfold i32 in *; auto; lia. }
  assert (Pf : forall d p, plain_json d p -> Forall (fun kv => valid_text (fst kv) /\ plain_json d (snd kv)) (params_field p)).
  { intros d p V. destruct p; cbn [params_field]; constructor; try constructor; try apply chars_valid; exact V. }
  intros m R P. unfold to_json. apply plain_obj. constructor; [split; [apply chars_valid | apply plain_str, chars_valid] |].
  destruct m as [i me p | i r | i c s d | me p]; cbn [readable plain_message] in *.
  - destruct P as (Vi & Vm & Vp). constructor; [split; [apply chars_valid | now apply Id] |]. constructor; [split; [apply chars_valid | now apply plain_str] |]. now apply Pf.
  - destruct R as [R _]. destruct P as (Vi & Vr). constructor; [split; [apply chars_valid | now apply Id] |]. constructor; [split; [apply chars_valid | exact Vr] |]. constructor; [split; [apply chars_valid | apply plain_null] | constructor].
  - destruct R as (R & Rc & _). destruct P as (Vi & Vs & Vd). constructor; [split; [apply chars_valid | now apply Id] |]. constructor; [split; [apply chars_valid | apply plain_null] |].
    constructor; [| constructor]. split; [apply chars_valid |]. apply plain_obj.
    constructor; [split; [apply chars_valid | apply plain_int; unfold i32 in Rc; lia] |]. constructor; [split; [apply chars_valid | now apply plain_str] |]. constructor; [split; [apply chars_valid | exact Vd] | constructor].
  - destruct P as (Vm & Vp). constructor; [split; [apply chars_valid | now apply plain_str] |]. now apply Pf.
Qed.
Definition message_body (sf : N -> text) (m : message) : bytes := utf8_encode (show sf (to_json m)).
Lemma body_round : forall sf fl m, readable m -> plain_message m -> read_body fl (message_body sf m) = Some m.
Proof. intros sf fl m R P. unfold read_body, message_body. rewrite json_round by now apply message_plain. now apply message_round. Qed.
Lemma body_nonempty : forall sf m, message_body sf m <> [].
Proof. intros sf m. discriminate. Qed.
Lemma received : forall sf fl ms n, Forall (fun m => readable m /\ plain_message m /\ N.of_nat (length (message_body sf m)) < USIZE) ms -> (length ms < n)%nat ->
  receive fl n (flat_map (write_message sf) ms) = (ms, true).
Proof.
  intros sf fl. induction ms as [| m ms IH]; intros n F L; (destruct n as [| n]; [lia |]); cbn [receive flat_map]; [reflexivity |]. inversion F as [| ? ? (R & P & U) F']; subst.
  unfold write_message at 1. fold (message_body sf m). rewrite read_written by (split; [apply body_nonempty | exact U]). rewrite body_round by assumption. cbn [length] in L. rewrite IH by (auto; lia). reflexivity.
Qed.
Lemma messages_round : forall sf fl ms, Forall (fun m => readable m /\ plain_message m /\ N.of_nat (length (message_body sf m)) < USIZE) ms ->
  receive_all fl (flat_map (write_message sf) ms) = (ms, true).
Proof.
  intros sf fl ms F. apply received; [exact F |]. replace (flat_map (write_message sf) ms) with (flat_map write_frame (map (message_body sf) ms)).
  - pose proof (written_length (map (message_body sf) ms)) as L. rewrite map_length in L. lia.
  - clear. induction ms as [| m ms IH]; cbn [flat_map map]; [reflexivity |]. now rewrite IH.
Qed.
