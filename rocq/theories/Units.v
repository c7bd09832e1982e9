(* css_lexer/src/dimension_unit.rs: generated entry by entry from the Rust enum and its three tables. *)
From Coq Require Import String Ascii.
From Verif Require Export Chars.

(* Text literals: ASCII only. *)
Fixpoint chars (s : string) : text :=
  match s with EmptyString => [] | String a r => N_of_ascii a :: chars r end.

(* dimension_unit.rs:27-94. The discriminants are 0..63 in declaration order. *)
Inductive unit_t : Set :=
  | U_Unknown | U_Cap | U_Ch | U_Cm | U_Cqb | U_Cqh | U_Cqi | U_Cqmax
  | U_Cqmin | U_Cqw | U_Deg | U_Dpcm | U_Dpi | U_Dppx | U_Dvb | U_Dvh
  | U_Dvi | U_Dvmax | U_Dvmin | U_Dvw | U_Em | U_Ex | U_Fr | U_Grad
  | U_Hz | U_Ic | U_In | U_Khz | U_Lh | U_Lvb | U_Lvh | U_Lvi
  | U_Lvmax | U_Lvmin | U_Lvw | U_Mm | U_Ms | U_Pc | U_Percent | U_Pt
  | U_Px | U_Q | U_Rad | U_Rcap | U_Rch | U_Rem | U_Rex | U_Ric
  | U_Rlh | U_S | U_Svb | U_Svh | U_Svi | U_Svmax | U_Svmin | U_Svw
  | U_Turn | U_Vb | U_Vh | U_Vi | U_Vmax | U_Vmin | U_Vw | U_X
  .

(* [unit as u8]: declaration order, dimension_unit.rs:27-94 *)
Definition unit_code (u : unit_t) : N :=
  match u with
  | U_Unknown => 0
  | U_Cap => 1
  | U_Ch => 2
  | U_Cm => 3
  | U_Cqb => 4
  | U_Cqh => 5
  | U_Cqi => 6
  | U_Cqmax => 7
  | U_Cqmin => 8
  | U_Cqw => 9
  | U_Deg => 10
  | U_Dpcm => 11
  | U_Dpi => 12
  | U_Dppx => 13
  | U_Dvb => 14
  | U_Dvh => 15
  | U_Dvi => 16
  | U_Dvmax => 17
  | U_Dvmin => 18
  | U_Dvw => 19
  | U_Em => 20
  | U_Ex => 21
  | U_Fr => 22
  | U_Grad => 23
  | U_Hz => 24
  | U_Ic => 25
  | U_In => 26
  | U_Khz => 27
  | U_Lh => 28
  | U_Lvb => 29
  | U_Lvh => 30
  | U_Lvi => 31
  | U_Lvmax => 32
  | U_Lvmin => 33
  | U_Lvw => 34
  | U_Mm => 35
  | U_Ms => 36
  | U_Pc => 37
  | U_Percent => 38
  | U_Pt => 39
  | U_Px => 40
  | U_Q => 41
  | U_Rad => 42
  | U_Rcap => 43
  | U_Rch => 44
  | U_Rem => 45
  | U_Rex => 46
  | U_Ric => 47
  | U_Rlh => 48
  | U_S => 49
  | U_Svb => 50
  | U_Svh => 51
  | U_Svi => 52
  | U_Svmax => 53
  | U_Svmin => 54
  | U_Svw => 55
  | U_Turn => 56
  | U_Vb => 57
  | U_Vh => 58
  | U_Vi => 59
  | U_Vmax => 60
  | U_Vmin => 61
  | U_Vw => 62
  | U_X => 63
  end.

(* [From<u8> for DimensionUnit], dimension_unit.rs:162-233 (its debug_assert is not modelled). *)
Definition unit_of_u8 (b : N) : unit_t :=
  match b with
  | 1 => U_Cap
  | 2 => U_Ch
  | 3 => U_Cm
  | 4 => U_Cqb
  | 5 => U_Cqh
  | 6 => U_Cqi
  | 7 => U_Cqmax
  | 8 => U_Cqmin
  | 9 => U_Cqw
  | 10 => U_Deg
  | 11 => U_Dpcm
  | 12 => U_Dpi
  | 13 => U_Dppx
  | 14 => U_Dvb
  | 15 => U_Dvh
  | 16 => U_Dvi
  | 17 => U_Dvmax
  | 18 => U_Dvmin
  | 19 => U_Dvw
  | 20 => U_Em
  | 21 => U_Ex
  | 22 => U_Fr
  | 23 => U_Grad
  | 24 => U_Hz
  | 25 => U_Ic
  | 26 => U_In
  | 27 => U_Khz
  | 28 => U_Lh
  | 29 => U_Lvb
  | 30 => U_Lvh
  | 31 => U_Lvi
  | 32 => U_Lvmax
  | 33 => U_Lvmin
  | 34 => U_Lvw
  | 35 => U_Mm
  | 36 => U_Ms
  | 37 => U_Pc
  | 38 => U_Percent
  | 39 => U_Pt
  | 40 => U_Px
  | 41 => U_Q
  | 42 => U_Rad
  | 43 => U_Rcap
  | 44 => U_Rch
  | 45 => U_Rem
  | 46 => U_Rex
  | 47 => U_Ric
  | 48 => U_Rlh
  | 49 => U_S
  | 50 => U_Svb
  | 51 => U_Svh
  | 52 => U_Svi
  | 53 => U_Svmax
  | 54 => U_Svmin
  | 55 => U_Svw
  | 56 => U_Turn
  | 57 => U_Vb
  | 58 => U_Vh
  | 59 => U_Vi
  | 60 => U_Vmax
  | 61 => U_Vmin
  | 62 => U_Vw
  | 63 => U_X
  | _ => U_Unknown
  end.

(* [DimensionUnit::len], dimension_unit.rs:101-159 *)
Definition unit_len (u : unit_t) : N :=
  match u with
  | U_Unknown => 0
  | U_Cap => 3
  | U_Ch => 2
  | U_Cm => 2
  | U_Cqb => 3
  | U_Cqh => 3
  | U_Cqi => 3
  | U_Cqmax => 5
  | U_Cqmin => 5
  | U_Cqw => 3
  | U_Deg => 3
  | U_Dpcm => 4
  | U_Dpi => 3
  | U_Dppx => 4
  | U_Dvb => 3
  | U_Dvh => 3
  | U_Dvi => 3
  | U_Dvmax => 5
  | U_Dvmin => 5
  | U_Dvw => 3
  | U_Em => 2
  | U_Ex => 2
  | U_Fr => 2
  | U_Grad => 4
  | U_Hz => 2
  | U_Ic => 2
  | U_In => 2
  | U_Khz => 3
  | U_Lh => 2
  | U_Lvb => 3
  | U_Lvh => 3
  | U_Lvi => 3
  | U_Lvmax => 5
  | U_Lvmin => 5
  | U_Lvw => 3
  | U_Mm => 2
  | U_Ms => 2
  | U_Pc => 2
  | U_Percent => 1
  | U_Pt => 2
  | U_Px => 2
  | U_Q => 1
  | U_Rad => 3
  | U_Rcap => 4
  | U_Rch => 3
  | U_Rem => 3
  | U_Rex => 3
  | U_Ric => 3
  | U_Rlh => 3
  | U_S => 1
  | U_Svb => 3
  | U_Svh => 3
  | U_Svi => 3
  | U_Svmax => 5
  | U_Svmin => 5
  | U_Svw => 3
  | U_Turn => 4
  | U_Vb => 2
  | U_Vh => 2
  | U_Vi => 2
  | U_Vmax => 4
  | U_Vmin => 4
  | U_Vw => 2
  | U_X => 1
  end.

(* [From<DimensionUnit> for &str], dimension_unit.rs:235-304 *)
Definition unit_str (u : unit_t) : text :=
  match u with
  | U_Unknown => chars ""
  | U_Cap => chars "cap"
  | U_Ch => chars "ch"
  | U_Cm => chars "cm"
  | U_Cqb => chars "cqb"
  | U_Cqh => chars "cqh"
  | U_Cqi => chars "cqi"
  | U_Cqmax => chars "cqmax"
  | U_Cqmin => chars "cqmin"
  | U_Cqw => chars "cqw"
  | U_Deg => chars "deg"
  | U_Dpcm => chars "dpcm"
  | U_Dpi => chars "dpi"
  | U_Dppx => chars "dppx"
  | U_Dvb => chars "dvb"
  | U_Dvh => chars "dvh"
  | U_Dvi => chars "dvi"
  | U_Dvmax => chars "dvmax"
  | U_Dvmin => chars "dvmin"
  | U_Dvw => chars "dvw"
  | U_Em => chars "em"
  | U_Ex => chars "ex"
  | U_Fr => chars "fr"
  | U_Grad => chars "grad"
  | U_Hz => chars "hz"
  | U_Ic => chars "ic"
  | U_In => chars "in"
  | U_Khz => chars "khz"
  | U_Lh => chars "lh"
  | U_Lvb => chars "lvb"
  | U_Lvh => chars "lvh"
  | U_Lvi => chars "lvi"
  | U_Lvmax => chars "lvmax"
  | U_Lvmin => chars "lvmin"
  | U_Lvw => chars "lvw"
  | U_Mm => chars "mm"
  | U_Ms => chars "ms"
  | U_Pc => chars "pc"
  | U_Percent => chars "%"
  | U_Pt => chars "pt"
  | U_Px => chars "px"
  | U_Q => chars "q"
  | U_Rad => chars "rad"
  | U_Rcap => chars "rcap"
  | U_Rch => chars "rch"
  | U_Rem => chars "rem"
  | U_Rex => chars "rex"
  | U_Ric => chars "ric"
  | U_Rlh => chars "rlh"
  | U_S => chars "s"
  | U_Svb => chars "svb"
  | U_Svh => chars "svh"
  | U_Svi => chars "svi"
  | U_Svmax => chars "svmin"
  | U_Svmin => chars "svmax"
  | U_Svw => chars "svw"
  | U_Turn => chars "turn"
  | U_Vb => chars "vb"
  | U_Vh => chars "vh"
  | U_Vi => chars "vi"
  | U_Vmax => chars "vmax"
  | U_Vmin => chars "vmin"
  | U_Vw => chars "vw"
  | U_X => chars "x"
  end.

Definition all_units : list unit_t := [
  U_Unknown; U_Cap; U_Ch; U_Cm; U_Cqb; U_Cqh; U_Cqi; U_Cqmax;
  U_Cqmin; U_Cqw; U_Deg; U_Dpcm; U_Dpi; U_Dppx; U_Dvb; U_Dvh;
  U_Dvi; U_Dvmax; U_Dvmin; U_Dvw; U_Em; U_Ex; U_Fr; U_Grad;
  U_Hz; U_Ic; U_In; U_Khz; U_Lh; U_Lvb; U_Lvh; U_Lvi;
  U_Lvmax; U_Lvmin; U_Lvw; U_Mm; U_Ms; U_Pc; U_Percent; U_Pt;
  U_Px; U_Q; U_Rad; U_Rcap; U_Rch; U_Rem; U_Rex; U_Ric;
  U_Rlh; U_S; U_Svb; U_Svh; U_Svi; U_Svmax; U_Svmin; U_Svw;
  U_Turn; U_Vb; U_Vh; U_Vi; U_Vmax; U_Vmin; U_Vw; U_X].

Definition unit_eqb (a b : unit_t) : bool := unit_code a =? unit_code b.
