(* Vocabulary for the framing of messages: the base protocol of LSP. *)
From Coq Require Import String.
From Coq Require Import List.
From Verif Require Import LspFrame.
Open Scope N_scope.
Open Scope list_scope.

(* a body the length field can describe *)
Definition sendable (body : bytes) : Prop := body <> [] /\ N.of_nat (length body) < USIZE.
(* ASCII digits and the number they write *)
Definition digits (l : bytes) : Prop := l <> [] /\ Forall (fun b => 48 <= b <= 57) l.
Fixpoint value_of (l : bytes) : N := match l with [] => 0 | b :: r => (b - 48) * 10 ^ N.of_nat (length r) + value_of r end.
(* the spelling of a header name *)
Definition spelled (name : bytes) (b : bytes) : Prop := map to_ascii_lowercase b = name.
(* header lines the reader understands *)
Inductive header_line : option N -> bytes -> Prop :=
  | hl_length : forall name blanks ds, spelled (chars "content-length"%string) name -> Forall (fun b => b = 32 \/ b = 9) blanks -> digits ds -> value_of ds < USIZE ->
      header_line (Some (value_of ds)) (name ++ 58 :: blanks ++ ds ++ [13; 10])
  | hl_type : forall name blanks v, spelled (chars "content-type"%string) name -> Forall (fun b => b = 32 \/ b = 9) blanks -> Forall (fun b => 33 <= b <= 126) v ->
      header_line None (name ++ 58 :: blanks ++ v ++ [13; 10]).
(* a header block: a length, with or without a type, in either order; the blank line is not included *)
Inductive header_block : N -> bytes -> Prop :=
  | hb_length : forall n h, header_line (Some n) h -> header_block n h
  | hb_type_first : forall n t h, header_line None t -> header_line (Some n) h -> header_block n (t ++ h)
  | hb_type_last : forall n t h, header_line None t -> header_line (Some n) h -> header_block n (h ++ t).
