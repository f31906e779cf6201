(** What the recipient of a response makes of it (RFC 7230 sections 3.3.3 and 3.4), independent of puck. *)
From Verif Require Import Base Num HttpSpec FramingSpec.

(** A response taken as whole, with its body and what came behind it; one that broke off; one with an unusable length. *)
Inductive answer :=
| Whole (code : N) (reason : str) (fields : list (str * str)) (content extra : str)
| CutOff
| Garbled.
(** Responses to HEAD, interim ones, 204 and 304 have no body whatever their fields say (3.3.3, case 1). *)
Definition bodiless (to_head : bool) (code : N) : Prop := to_head = true \/ (100 <= code <= 199)%N \/ code = 204%N \/ code = 304%N.
(** [ds] is a numeral for [n] (3.3.2). *)
Definition says (ds : str) (n : nat) : Prop := ds <> [] /\ Forall is_digit ds /\ digits_value ds = N.of_nat n.
Definition pair_of (f : field) : str * str := (f_name f, f_value f).

(** [received to_head bytes a]: the connection delivered [bytes] and was then closed. *)
Inductive received (to_head : bool) : str -> answer -> Prop :=
| no_whole_head bytes : no_head bytes -> received to_head bytes CutOff                                      (* 3.4 *)
| without_body code reason fs rest : response_head_ok code reason fs -> bodiless to_head code ->              (* case 1 *)
    received to_head (response_head code reason fs ++ rest) (Whole code reason (map pair_of fs) [] rest)
| in_chunks code reason fs f coded content rest : response_head_ok code reason fs -> ~ bodiless to_head code -> (* case 3 *)
    In f fs -> to_lower (f_name f) = bs "transfer-encoding" -> to_lower (f_value f) = bs "chunked" -> chunked coded content ->
    received to_head (response_head code reason fs ++ coded ++ rest) (Whole code reason (map pair_of fs) content rest)
| chunks_missing code reason fs f rest : response_head_ok code reason fs -> ~ bodiless to_head code ->          (* 3.4 *)
    In f fs -> to_lower (f_name f) = bs "transfer-encoding" -> to_lower (f_value f) = bs "chunked" ->
    (forall coded content extra, chunked coded content -> rest <> coded ++ extra) ->
    received to_head (response_head code reason fs ++ rest) CutOff
| by_announced_length code reason fs ds content rest : response_head_ok code reason fs -> ~ bodiless to_head code -> (* case 5 *)
    ~ has_field (bs "transfer-encoding") fs -> has_field (bs "content-length") fs ->
    Forall (fun f => to_lower (f_name f) = bs "content-length" -> f_value f = ds) fs -> says ds (length content) ->
    received to_head (response_head code reason fs ++ content ++ rest) (Whole code reason (map pair_of fs) content rest)
| too_short code reason fs ds n rest : response_head_ok code reason fs -> ~ bodiless to_head code ->            (* case 5, 3.4 *)
    ~ has_field (bs "transfer-encoding") fs -> has_field (bs "content-length") fs ->
    Forall (fun f => to_lower (f_name f) = bs "content-length" -> f_value f = ds) fs -> says ds n -> length rest < n ->
    received to_head (response_head code reason fs ++ rest) CutOff
| no_length code reason fs rest : response_head_ok code reason fs -> ~ bodiless to_head code ->                 (* case 4 *)
    ~ has_field (bs "transfer-encoding") fs -> has_field (bs "content-length") fs ->
    (forall ds n, Forall (fun f => to_lower (f_name f) = bs "content-length" -> f_value f = ds) fs -> ~ says ds n) ->
    received to_head (response_head code reason fs ++ rest) Garbled
| until_closed code reason fs rest : response_head_ok code reason fs -> ~ bodiless to_head code ->              (* case 7 *)
    ~ has_field (bs "transfer-encoding") fs -> ~ has_field (bs "content-length") fs ->
    received to_head (response_head code reason fs ++ rest) (Whole code reason (map pair_of fs) rest []).

(** What a server makes of the bytes of a connection: the requests in them, one behind the other (3.3.3, 6.3). Each begins with
    its head, and its body ends where its fields say ([framed]). *)
Record asked := Asked { a_method : str; a_target : str; a_fields : list (str * str); a_content : str }.
Inductive taken : str -> list asked -> Prop :=
| nothing_taken : taken [] []
| one_taken meth target fs bytes content rest more : request_head_ok meth target fs -> framed fs bytes content rest -> taken rest more ->
    taken (request_head meth target fs ++ bytes) (Asked meth target (map pair_of fs) content :: more).
