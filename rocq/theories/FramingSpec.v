(** Where the body of a request ends (RFC 7230 section 3.3.3), independent of puck. *)
From Verif Require Import Base Num HttpSpec.

Definition has_field (name : str) (fs : list field) : Prop := Exists (fun f => to_lower (f_name f) = name) fs.
Definition hex_digits : str := bs "0123456789abcdef".
(** [hex_of s n]: [s] is a lower-case hexadecimal numeral for [n]. *)
Inductive hex_of : str -> nat -> Prop :=
| hex_one p d q : hex_digits = p ++ d :: q -> hex_of [d] (length p)
| hex_more s n p d q : hex_of s n -> hex_digits = p ++ d :: q -> hex_of (s ++ [d]) (16 * n + length p).
(** 4.1 chunked transfer coding, without extensions and trailers: [chunked coded content]. *)
Inductive chunked : str -> str -> Prop :=
| last_chunk : chunked (bs "0" ++ CRLF ++ CRLF) []
| one_chunk size data coded content : data <> [] -> hex_of size (length data) -> chunked coded content ->
    chunked (size ++ CRLF ++ data ++ CRLF ++ coded) (data ++ content).
(** [framed fs bytes content rest]: behind a head with the fields [fs] come [bytes]: the body [content],
    then [rest], which belongs to later messages. *)
Inductive framed (fs : list field) : str -> str -> str -> Prop :=
| by_chunks f coded content rest :                                              (* 3.3.3, case 3 *)
    In f fs -> to_lower (f_name f) = bs "transfer-encoding" -> to_lower (f_value f) = bs "chunked" ->
    chunked coded content -> framed fs (coded ++ rest) content rest
| by_length ds content rest :                                                   (* case 5 *)
    ~ has_field (bs "transfer-encoding") fs -> has_field (bs "content-length") fs ->
    Forall (fun f => to_lower (f_name f) = bs "content-length" -> f_value f = ds) fs ->
    ds <> [] -> Forall is_digit ds -> digits_value ds = N.of_nat (length content) ->
    framed fs (content ++ rest) content rest
| no_body rest :                                                                (* case 6 *)
    ~ has_field (bs "transfer-encoding") fs -> ~ has_field (bs "content-length") fs ->
    framed fs rest [] rest.
(** 3.3.3, case 4: a Content-Length that is not a number is an error. *)
Definition invalid_length (fs : list field) : Prop :=
  Exists (fun f => to_lower (f_name f) = bs "content-length" /\ ~ Forall is_digit (f_value f)) fs.
