(** What RFC 6455 says, written independently of puck's code (only byte strings and arithmetic). *)
From Verif Require Import Base.
Local Open Scope N_scope.

(** Big-endian numbers. *)
Fixpoint net_value (d : str) : N :=
  match d with [] => 0 | c :: d' => b2n c * 256 ^ N.of_nat (length d') + net_value d' end.
Fixpoint net_bytes (k : nat) (n : N) : str :=
  match k with O => [] | S k' => n2b (n / 256 ^ N.of_nat k') :: net_bytes k' n end.

(** A frame as RFC 6455 5.2 describes it. [rf_rsv] is the 3-bit field RSV1 RSV2 RSV3. *)
Record rfc_frame := RFC {
  rf_fin : bool; rf_rsv : N; rf_op : N; rf_key : option str; rf_payload : str }.

(** 5.3: octet i of the payload is XORed with octet (i mod 4) of the key. *)
Definition xor_key (key payload : str) : str :=
  map (fun ic => n2b (N.lxor (b2n (snd ic)) (b2n (nth (fst ic mod 4) key x00))))
      (combine (seq 0 (length payload)) payload).

(** The three length forms of 5.2. *)
Inductive len_form := Len7 | Len16 | Len64.
Definition form_fits (fm : len_form) (n : N) : Prop :=
  match fm with Len7 => n < 126 | Len16 => n < 2 ^ 16 | Len64 => n < 2 ^ 63 end.
Definition minimal_form (n : N) : len_form :=
  if n <? 126 then Len7 else if n <? 2 ^ 16 then Len16 else Len64.
Definition form_field (fm : len_form) (n : N) : N :=
  match fm with Len7 => n | Len16 => 126 | Len64 => 127 end.
Definition form_ext (fm : len_form) (n : N) : str :=
  match fm with Len7 => [] | Len16 => net_bytes 2 n | Len64 => net_bytes 8 n end.
Definition form_len (fm : len_form) : nat :=
  match fm with Len7 => 0%nat | Len16 => 2%nat | Len64 => 8%nat end.

Definition flag (b : bool) (w : N) : N := if b then w else 0.

(** The header of a frame declaring [n] payload bytes, the length written in form [fm]. *)
Definition rfc_head (fm : len_form) (fin : bool) (rsv op : N) (masked : bool) (n : N) : str :=
  [n2b (flag fin 128 + rsv * 16 + op); n2b (flag masked 128 + form_field fm n)] ++ form_ext fm n.

(** The bytes of a frame with its length written in form [fm]. *)
Definition is_masked (f : rfc_frame) : bool := match rf_key f with Some _ => true | None => false end.
Definition rfc_header (fm : len_form) (f : rfc_frame) : str :=
  rfc_head fm (rf_fin f) (rf_rsv f) (rf_op f) (is_masked f) (N.of_nat (length (rf_payload f))).
Definition rfc_encode (fm : len_form) (f : rfc_frame) : str :=
  rfc_header fm f ++
  match rf_key f with
  | Some k => k ++ xor_key k (rf_payload f)
  | None => rf_payload f
  end.

Definition rfc_wf (fm : len_form) (f : rfc_frame) : Prop :=
  rf_rsv f < 8 /\ rf_op f < 16 /\ form_fits fm (N.of_nat (length (rf_payload f))) /\
  match rf_key f with Some k => length k = 4%nat | None => True end.

(** A frame decoder written from the RFC: the first frame in [s] and what follows it. *)
Definition rfc_decode (s : str) : option (rfc_frame * str) :=
  match s with
  | a :: b :: s1 =>
      let fin := 128 <=? b2n a in
      let rsv := (b2n a / 16) mod 8 in
      let op := b2n a mod 16 in
      let masked := 128 <=? b2n b in
      let l7 := b2n b mod 128 in
      let ext := if l7 =? 126 then 2%nat else if l7 =? 127 then 8%nat else 0%nat in
      if (length s1 <? ext)%nat then None else
      let len := if l7 <? 126 then l7 else net_value (firstn ext s1) in
      let s2 := skipn ext s1 in
      let kl := if masked then 4%nat else 0%nat in
      if (length s2 <? kl)%nat then None else
      let key := firstn kl s2 in
      let s3 := skipn kl s2 in
      if (2 ^ 63 <=? len) || (N.of_nat (length s3) <? len) then None else
      let body := firstn (N.to_nat len) s3 in
      Some (RFC fin rsv op (if masked then Some key else None)
                (if masked then xor_key key body else body), skipn (N.to_nat len) s3)
  | _ => None
  end.

(** Decode a whole byte string into frames; [None] if it is not exactly a sequence of frames. *)
Fixpoint rfc_decode_all (fuel : nat) (s : str) : option (list rfc_frame) :=
  match s with
  | [] => Some []
  | _ =>
      match fuel with
      | O => None
      | S fuel' =>
          match rfc_decode s with
          | Some (f, s') => option_map (cons f) (rfc_decode_all fuel' s')
          | None => None
          end
      end
  end.
(** Every frame takes at least two bytes, so the length of [s] is enough fuel. *)
Definition frames_in (s : str) : option (list rfc_frame) := rfc_decode_all (length s) s.

(** The length declared by a header whose second byte is [b] and whose extension bytes are [ext]
    (5.2: 0-125, or 126 and 16 bits, or 127 and 64 bits). *)
Definition ext_len (b : byte) : nat :=
  if b2n b mod 128 =? 126 then 2%nat else if b2n b mod 128 =? 127 then 8%nat else 0%nat.
Definition declared_len (b : byte) (ext : str) : N :=
  if b2n b mod 128 <? 126 then b2n b mod 128 else net_value ext.
Definition mask_bit (b : byte) : bool := 128 <=? b2n b.

(** ** Messages (5.4, 5.6) *)

(** A data or control message with opcode [op]: one final frame, or a first non-final frame
    followed by continuation frames (opcode 0) of which exactly the last is final. *)
Definition fragments_of (op : N) (fs : list rfc_frame) : Prop :=
  (exists f, fs = [f] /\ rf_fin f = true /\ rf_op f = op) \/
  (exists f mids l, fs = f :: mids ++ [l] /\
     rf_fin f = false /\ rf_op f = op /\
     Forall (fun g => rf_fin g = false /\ rf_op g = 0) mids /\
     rf_fin l = true /\ rf_op l = 0).
Definition payload_of (fs : list rfc_frame) : str := concat (map rf_payload fs).

(** ** Segmentation *)

(** The transport delivers [bytes] as the non-empty segments [cs]. *)
Definition segments (cs : list str) (bytes : str) : Prop :=
  Forall (fun c => c <> []) cs /\ concat cs = bytes.
(** A segment boundary lies exactly [p] bytes into the segments. *)
Definition cut_at (cs : list str) (p : nat) : Prop :=
  exists cs1 cs2, cs = cs1 ++ cs2 /\ length (concat cs1) = p.
