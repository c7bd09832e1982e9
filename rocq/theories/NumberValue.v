(* Proofs behind PropNumber. *)
From Coq Require Import ZArith.
From Verif Require Import Lexer SpecToken SpecLex SpecTrace SpecF32 F32Proofs LexProps2 LexProps3.
Open Scope N_scope.
Lemma token_value : forall f pre l t, would_start_number l -> within_limits l -> esc_ok l -> token_at f pre l t ->
  exists p r neg m e b, longest_number l p r /\ decimal_of p neg m e /\ tvalue t = signed neg b /\ nearest_f32 (numerator m e) (denominator e) b.
Proof.
  intros f pre l t W WL He T. destruct (number_token f pre l t W WL He T) as (p & r & Hl & _ & _ & _ & _ & _ & V).
  pose proof Hl as (_ & CN & _). destruct (decimal_total p CN) as (neg & m & e & D). destruct (parse_f32_nearest p neg m e D) as (b & E & NB).
  exists p, r, neg, m, e, b. rewrite V. auto.
Qed.
Lemma token_value_int : forall f pre l t p r neg m, would_start_number l -> within_limits l -> esc_ok l -> token_at f pre l t ->
  longest_number l p r -> decimal_of p neg m 0 -> (m <= 2 ^ 24)%Z -> exists b, tvalue t = signed neg b /\ (0 <= b < f32_infinity)%Z /\ f32_units b = (m * 2 ^ 149)%Z.
Proof.
  intros f pre l t p r neg m W WL He T HL D Hm. destruct (number_token f pre l t W WL He T) as (p' & r' & Hl & _ & _ & _ & _ & _ & V).
  destruct (longest_det _ _ _ _ _ HL Hl) as (<- & <-). rewrite V. exact (int_exact p neg m 0 D eq_refl Hm).
Qed.
