(** How a browser submits a form with one named text field (WHATWG URL, application/x-www-form-urlencoded), independent
    of puck. *)
From Verif Require Import Base.

(** Letters, digits and [*-._] stand for themselves. *)
Definition form_plain (c : byte) : Prop := In c (bs "abcdefghijklmnopqrstuvwxyzABCDEFGHIJKLMNOPQRSTUVWXYZ0123456789*-._").
Definition form_plainb (c : byte) : bool := existsb (byte_eqb c) (bs "abcdefghijklmnopqrstuvwxyzABCDEFGHIJKLMNOPQRSTUVWXYZ0123456789*-._").
Definition upper_hex (n : N) : byte := nth (N.to_nat n) (bs "0123456789ABCDEF") x30.
(** A space becomes "+", every other byte a percent sign and two hexadecimal digits. *)
Definition form_byte (c : byte) : str :=
  if form_plainb c then [c] else if byte_eqb c x20 then [x2b]
  else [x25; upper_hex (Byte.to_N c / 16); upper_hex (Byte.to_N c mod 16)].
Definition form_encode (text : str) : str := flat_map form_byte text.
(** The body of the POST request: name, "=", value. *)
Definition form_body (name text : str) : str := form_encode name ++ bs "=" ++ form_encode text.
