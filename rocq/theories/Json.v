(** JSON text: the printer of serde_json (and of the browser's JSON.stringify) and a JSON parser
    (serde_json::from_str, JSON.parse). Strings are their UTF-8 encodings.

    These two are library code, not part of /repo; they are modelled because the wire format between
    /repo/puck_liveview/src/component/mod.rs:130, 133, 203 and /repo/puck_liveview/client/index.js:4
    goes through them. *)
From Verif Require Import Base Num Utf8.

Inductive json :=
| JNull
| JBool (b : bool)
| JNum (text : str)
| JStr (s : str)
| JArr (l : list json)
| JObj (l : list (str * json)).

Definition c_quote : byte := x22.
Definition c_back : byte := x5c.

(** ** Printing (compact form) *)

(** The lower case hexadecimal digit of a number below 16. *)
Definition hex_digit (n : N) : byte := n2b (if (n <? 10)%N then 48 + n else 87 + n).
(** serde_json's ESCAPE table; JSON.stringify escapes the same characters the same way. *)
Definition esc_byte (b : byte) : str :=
  if byte_eqb b c_quote then [c_back; c_quote]
  else if byte_eqb b c_back then [c_back; c_back]
  else if N.eqb (b2n b) 8 then c_back :: bs "b"
  else if N.eqb (b2n b) 9 then c_back :: bs "t"
  else if N.eqb (b2n b) 10 then c_back :: bs "n"
  else if N.eqb (b2n b) 12 then c_back :: bs "f"
  else if N.eqb (b2n b) 13 then c_back :: bs "r"
  else if N.ltb (b2n b) 32 then c_back :: bs "u00" ++ [hex_digit (b2n b / 16); hex_digit (b2n b mod 16)]
  else [b].
Definition print_str (s : str) : str := c_quote :: flat_map esc_byte s ++ [c_quote].

Fixpoint sep_by (sep : str) (l : list str) : str :=
  match l with
  | [] => []
  | [x] => x
  | x :: l' => x ++ sep ++ sep_by sep l'
  end.
Fixpoint print_json (v : json) : str :=
  match v with
  | JNull => bs "null"
  | JBool true => bs "true"
  | JBool false => bs "false"
  | JNum t => t
  | JStr s => print_str s
  | JArr l => bs "[" ++ sep_by (bs ",") (map print_json l) ++ bs "]"
  | JObj l => bs "{" ++ sep_by (bs ",") (map (fun kv => print_str (fst kv) ++ bs ":" ++ print_json (snd kv)) l) ++ bs "}"
  end.

(** ** Parsing (RFC 8259) *)

Definition is_ws (b : byte) : bool := N.eqb (b2n b) 32 || N.eqb (b2n b) 9 || N.eqb (b2n b) 10 || N.eqb (b2n b) 13.
Fixpoint skip_ws (s : str) : str :=
  match s with
  | [] => []
  | b :: r => if is_ws b then skip_ws r else s
  end.

Definition hex_val (b : byte) : option N :=
  let n := b2n b in
  if ((48 <=? n) && (n <=? 57))%N then Some (n - 48)%N
  else if ((97 <=? n) && (n <=? 102))%N then Some (n - 87)%N
  else if ((65 <=? n) && (n <=? 70))%N then Some (n - 55)%N
  else None.
Definition hex4 (a b c d : byte) : option N :=
  match hex_val a, hex_val b, hex_val c, hex_val d with
  | Some a, Some b, Some c, Some d => Some (((a * 16 + b) * 16 + c) * 16 + d)%N
  | _, _, _, _ => None
  end.
Definition simple_escape (b : byte) : option byte :=
  if byte_eqb b c_quote then Some c_quote
  else if byte_eqb b c_back then Some c_back
  else if byte_eqb b x2f then Some x2f
  else if byte_eqb b x62 then Some x08
  else if byte_eqb b x74 then Some x09
  else if byte_eqb b x6e then Some x0a
  else if byte_eqb b x66 then Some x0c
  else if byte_eqb b x72 then Some x0d
  else None.
Definition cons_str (p : str) (r : option (str * str)) : option (str * str) :=
  match r with Some (s, rest) => Some (p ++ s, rest) | None => None end.
(** The characters of a string up to the closing quote, and what follows it. Lone surrogate escapes are
    rejected, as serde_json does (JSON.parse would keep them; no text the server prints has any). *)
Fixpoint parse_str (s : str) : option (str * str) :=
  match s with
  | [] => None
  | b :: r =>
      if byte_eqb b c_quote then Some ([], r)
      else if byte_eqb b c_back then
        match r with
        | [] => None
        | e :: r1 =>
            if byte_eqb e x75 then
              match r1 with
              | h1 :: h2 :: h3 :: h4 :: r2 =>
                  match hex4 h1 h2 h3 h4 with
                  | None => None
                  | Some c =>
                      if ((55296 <=? c) && (c <? 56320))%N then
                        match r2 with
                        | k :: u :: g1 :: g2 :: g3 :: g4 :: r3 =>
                            match hex4 g1 g2 g3 g4 with
                            | Some d =>
                                if byte_eqb k c_back && byte_eqb u x75 && ((56320 <=? d) && (d <? 57344))%N
                                then cons_str (utf8_encode (65536 + (c - 55296) * 1024 + (d - 56320))) (parse_str r3)
                                else None
                            | None => None
                            end
                        | _ => None
                        end
                      else if ((56320 <=? c) && (c <? 57344))%N then None
                      else cons_str (utf8_encode c) (parse_str r2)
                  end
              | _ => None
              end
            else match simple_escape e with
                 | Some x => cons_str [x] (parse_str r1)
                 | None => None
                 end
        end
      else if N.ltb (b2n b) 32 then None
      else cons_str [b] (parse_str r)
  end.

Definition is_dig (b : byte) : bool := ((48 <=? b2n b) && (b2n b <=? 57))%N.
Fixpoint take_digits (s : str) : str * str :=
  match s with
  | b :: r => if is_dig b then let '(d, r') := take_digits r in (b :: d, r') else ([], s)
  | [] => ([], [])
  end.
(** A number token: its text and the rest. *)
Definition parse_num (s : str) : option (str * str) :=
  let '(sign, s1) := match s with b :: r => if byte_eqb b x2d then ([b], r) else ([], s) | [] => ([], []) end in
  let '(ip, s2) := take_digits s1 in
  match ip with
  | [] => None
  | z :: ip' =>
      if byte_eqb z x30 && negb (match ip' with [] => true | _ => false end) then None
      else
        match (match s2 with
               | p :: r => if byte_eqb p x2e
                           then match take_digits r with ([], _) => None | (d, r') => Some (p :: d, r') end
                           else Some ([], s2)
               | [] => Some ([], [])
               end) with
        | None => None
        | Some (fp, s3) =>
            match (match s3 with
                   | e :: r =>
                       if byte_eqb e x65 || byte_eqb e x45 then
                         let '(sg, r1) := match r with b :: r' => if byte_eqb b x2b || byte_eqb b x2d then ([b], r') else ([], r) | [] => ([], []) end in
                         match take_digits r1 with ([], _) => None | (d, r') => Some (e :: sg ++ d, r') end
                       else Some ([], s3)
                   | [] => Some ([], [])
                   end) with
            | None => None
            | Some (ep, s4) => Some (sign ++ ip ++ fp ++ ep, s4)
            end
        end
  end.

(** [fuel] bounds the recursion of the model; [depth] is the nesting still allowed (serde_json's
    recursion limit). *)
Fixpoint parse_value (fuel depth : nat) (s : str) : option (json * str) :=
  match fuel with
  | 0 => None
  | S f =>
      match skip_ws s with
      | [] => None
      | b :: r =>
          if byte_eqb b c_quote then match parse_str r with Some (t, r') => Some (JStr t, r') | None => None end
          else if byte_eqb b x5b then                                           (* [ *)
            match depth with
            | 0 => None
            | S d =>
                match skip_ws r with
                | e :: r' => if byte_eqb e x5d then Some (JArr [], r')
                             else match parse_elems f d r with Some (l, r'') => Some (JArr l, r'') | None => None end
                | [] => None
                end
            end
          else if byte_eqb b x7b then                                           (* { *)
            match depth with
            | 0 => None
            | S d =>
                match skip_ws r with
                | e :: r' => if byte_eqb e x7d then Some (JObj [], r')
                             else match parse_members f d r with Some (l, r'') => Some (JObj l, r'') | None => None end
                | [] => None
                end
            end
          else if starts_with (bs "null") (b :: r) then Some (JNull, skipn 3 r)
          else if starts_with (bs "true") (b :: r) then Some (JBool true, skipn 3 r)
          else if starts_with (bs "false") (b :: r) then Some (JBool false, skipn 4 r)
          else match parse_num (b :: r) with Some (t, r') => Some (JNum t, r') | None => None end
      end
  end
with parse_elems (fuel depth : nat) (s : str) : option (list json * str) :=
  match fuel with
  | 0 => None
  | S f =>
      match parse_value f depth s with
      | None => None
      | Some (v, r) =>
          match skip_ws r with
          | e :: r' =>
              if byte_eqb e x5d then Some ([v], r')
              else if byte_eqb e x2c then
                match parse_elems f depth r' with Some (l, r'') => Some (v :: l, r'') | None => None end
              else None
          | [] => None
          end
      end
  end
with parse_members (fuel depth : nat) (s : str) : option (list (str * json) * str) :=
  match fuel with
  | 0 => None
  | S f =>
      match skip_ws s with
      | q :: r =>
          if byte_eqb q c_quote then
            match parse_str r with
            | None => None
            | Some (k, r1) =>
                match skip_ws r1 with
                | c :: r2 =>
                    if byte_eqb c x3a then
                      match parse_value f depth r2 with
                      | None => None
                      | Some (v, r3) =>
                          match skip_ws r3 with
                          | e :: r' =>
                              if byte_eqb e x7d then Some ([(k, v)], r')
                              else if byte_eqb e x2c then
                                match parse_members f depth r' with Some (l, r'') => Some ((k, v) :: l, r'') | None => None end
                              else None
                          | [] => None
                          end
                      end
                    else None
                | [] => None
                end
            end
          else None
      | [] => None
      end
  end.
(** A whole document; [depth] as above. *)
Definition parse_json (depth : nat) (s : str) : option json :=
  match parse_value (2 * length s + 2) depth s with
  | Some (v, r) => match skip_ws r with [] => Some v | _ => None end
  | None => None
  end.

(** ** Round trip *)

Fixpoint jdepth (v : json) : nat :=
  match v with
  | JArr l => S (fold_right (fun x m => Nat.max (jdepth x) m) 0 l)
  | JObj l => S (fold_right (fun kv m => Nat.max (jdepth (snd kv)) m) 0 l)
  | _ => 0
  end.
(** No numbers (neither side ever prints one). *)
Inductive plain : json -> Prop :=
| PNull : plain JNull
| PBool b : plain (JBool b)
| PStr s : plain (JStr s)
| PArr l : Forall plain l -> plain (JArr l)
| PObj l : Forall (fun kv => plain (snd kv)) l -> plain (JObj l).

Lemma json_ind2 (P : json -> Prop) :
  P JNull -> (forall b, P (JBool b)) -> (forall t, P (JNum t)) -> (forall s, P (JStr s)) ->
  (forall l, Forall P l -> P (JArr l)) -> (forall l, Forall (fun kv => P (snd kv)) l -> P (JObj l)) -> forall v, P v.
Proof.
  intros H1 H2 H3 H4 H5 H6. fix IH 1. intros [|b|t|s|l|l]; [exact H1|apply H2|apply H3|apply H4| | ].
  - apply H5. induction l as [|x l IHl]; constructor; [apply IH|exact IHl].
  - apply H6. induction l as [|x l IHl]; constructor; [apply IH|exact IHl].
Qed.

Lemma hex_val_digit n : (n < 16)%N -> hex_val (hex_digit n) = Some n.
Proof.
  intros H. unfold hex_val, hex_digit. destruct (N.ltb_spec n 10) as [L|L]; rewrite b2n_n2b, N.mod_small by lia.
  - rewrite (proj2 (N.leb_le _ _)) by lia. rewrite (proj2 (N.leb_le (48 + n) 57)) by lia. cbn [andb]. f_equal. lia.
  - rewrite (proj2 (N.leb_gt (87 + n) 57)) by lia. rewrite andb_false_r.
    rewrite (proj2 (N.leb_le 97 (87 + n))) by lia. rewrite (proj2 (N.leb_le (87 + n) 102)) by lia. cbn [andb]. f_equal. lia.
Qed.
Lemma parse_esc_byte b r : parse_str (esc_byte b ++ r) = cons_str [b] (parse_str r).
Proof.
  unfold esc_byte.
  destruct (byte_eqb b c_quote) eqn:E1. { apply byte_eqb_eq in E1 as ->. reflexivity. }
  destruct (byte_eqb b c_back) eqn:E2. { apply byte_eqb_eq in E2 as ->. reflexivity. }
  destruct (N.eqb_spec (b2n b) 8) as [E|]. { apply n2b_eq in E as ->. reflexivity. }
  destruct (N.eqb_spec (b2n b) 9) as [E|]. { apply n2b_eq in E as ->. reflexivity. }
  destruct (N.eqb_spec (b2n b) 10) as [E|]. { apply n2b_eq in E as ->. reflexivity. }
  destruct (N.eqb_spec (b2n b) 12) as [E|]. { apply n2b_eq in E as ->. reflexivity. }
  destruct (N.eqb_spec (b2n b) 13) as [E|]. { apply n2b_eq in E as ->. reflexivity. }
  destruct (N.ltb_spec (b2n b) 32) as [L|L].
  - pose proof (b2n_lt b) as Hb. pose proof (N.mod_upper_bound (b2n b) 16 ltac:(lia)) as Hm.
    pose proof (N.div_lt_upper_bound (b2n b) 16 2 ltac:(lia) ltac:(lia)) as Hd.
    pose proof (N.div_mod (b2n b) 16 ltac:(lia)) as He.
    change (bs "u00") with [x75; x30; x30].
    set (h1 := hex_digit (b2n b / 16)) in *. set (h2 := hex_digit (b2n b mod 16)) in *.
    assert (hex4 x30 x30 h1 h2 = Some (b2n b)) as E4.
    { unfold hex4. change (hex_val x30) with (Some 0%N). unfold h1, h2. rewrite !hex_val_digit by lia. f_equal. lia. }
    cbn [app]. 
    assert (parse_str (c_back :: x75 :: x30 :: x30 :: h1 :: h2 :: r) = cons_str (utf8_encode (b2n b)) (parse_str r)) as ->.
    { cbn [parse_str]. change (byte_eqb c_back c_quote) with false. change (byte_eqb c_back c_back) with true. change (byte_eqb x75 x75) with true. cbv beta iota.
      rewrite E4. rewrite (proj2 (N.leb_gt 55296 (b2n b))) by lia. rewrite (proj2 (N.leb_gt 56320 (b2n b))) by lia. reflexivity. }
    rewrite enc1 by lia. now rewrite n2b_b2n.
  - cbn [app parse_str]. rewrite E1, E2. now rewrite (proj2 (N.ltb_ge _ _) L).
Qed.
Lemma parse_print_str s r : parse_str (flat_map esc_byte s ++ c_quote :: r) = Some (s, r).
Proof.
  induction s as [|b s IH]; [reflexivity|]. cbn [flat_map]. rewrite <- app_assoc, parse_esc_byte, IH. reflexivity.
Qed.

Lemma skip_ws_quote r : skip_ws (c_quote :: r) = c_quote :: r.
Proof. reflexivity. Qed.

(** The first byte of a printed value. *)
Lemma print_head v : plain v -> exists b t, print_json v = b :: t /\ is_ws b = false /\ byte_eqb b x5d = false /\ byte_eqb b x7d = false.
Proof. intros H. destruct H as [|[]|s|l|l]; (eexists _, _; split; [reflexivity|]; now vm_compute). Qed.

(** Fuel for a printed value. *)
Fixpoint jsize (v : json) : nat :=
  match v with
  | JArr l => S (fold_right (fun x m => S (jsize x) + m) 0 l)
  | JObj l => S (fold_right (fun kv m => S (jsize (snd kv)) + m) 0 l)
  | _ => 1
  end.

Lemma sep_cons sep x y l : sep_by sep (x :: y :: l) = x ++ sep ++ sep_by sep (y :: l).
Proof. reflexivity. Qed.

Definition reads_back (v : json) : Prop := forall fuel depth r, jsize v <= fuel -> jdepth v <= depth -> parse_value fuel depth (print_json v ++ r) = Some (v, r).

Lemma elems_read l : Forall reads_back l -> l <> [] -> forall fuel depth r,
  fold_right (fun x m => S (jsize x) + m) 0 l <= fuel -> fold_right (fun x m => Nat.max (jdepth x) m) 0 l <= depth ->
  parse_elems fuel depth (sep_by [x2c] (map print_json l) ++ x5d :: r) = Some (l, r).
Proof.
  induction 1 as [|x l Hx Hl IH]; [congruence|]. intros _ fuel depth r Hf Hd. cbn [fold_right] in Hf, Hd.
  destruct fuel as [|f]; [lia|]. cbn [parse_elems]. destruct l as [|y l].
  - cbn [map sep_by]. rewrite Hx by lia. reflexivity.
  - cbn [map]. rewrite sep_cons, <- !app_assoc. rewrite Hx by lia. cbn [app].
    change (skip_ws (x2c :: ?t)) with (x2c :: t). cbv beta iota.
    change (byte_eqb x2c x5d) with false. change (byte_eqb x2c x2c) with true. cbv beta iota.
    specialize (IH ltac:(discriminate) f depth r). cbn [map] in IH. rewrite IH; [reflexivity|lia|lia].
Qed.
Definition print_member (kv : str * json) : str := print_str (fst kv) ++ x3a :: print_json (snd kv).
Lemma members_read l : Forall (fun kv => reads_back (snd kv)) l -> l <> [] -> forall fuel depth r,
  fold_right (fun kv m => S (jsize (snd kv)) + m) 0 l <= fuel -> fold_right (fun kv m => Nat.max (jdepth (snd kv)) m) 0 l <= depth ->
  parse_members fuel depth (sep_by [x2c] (map print_member l) ++ x7d :: r) = Some (l, r).
Proof.
  induction 1 as [|[k v] l Hx Hl IH]; [congruence|]. intros _ fuel depth r Hf Hd. cbn [fold_right snd] in Hf, Hd, Hx.
  destruct fuel as [|f]; [lia|].
  assert (exists t, sep_by [x2c] (map print_member ((k, v) :: l)) ++ x7d :: r = c_quote :: flat_map esc_byte k ++ c_quote :: x3a :: print_json v ++ t /\
     match l with [] => t = x7d :: r | _ => t = x2c :: sep_by [x2c] (map print_member l) ++ x7d :: r end) as (t & -> & Ht).
  { destruct l as [|y l].
    - exists (x7d :: r). split; [|reflexivity]. cbn [map sep_by]. unfold print_member, print_str. cbn [fst snd]. rewrite <- !app_assoc. cbn [app]. now rewrite <- !app_assoc.
    - eexists. split; [|reflexivity]. cbn [map]. rewrite sep_cons. unfold print_member at 1, print_str. cbn [fst snd]. rewrite <- !app_assoc. cbn [app]. now rewrite <- !app_assoc. }
  cbn [parse_members]. rewrite skip_ws_quote. change (byte_eqb c_quote c_quote) with true. cbv beta iota.
  rewrite parse_print_str. change (skip_ws (x3a :: ?t)) with (x3a :: t). cbv beta iota. change (byte_eqb x3a x3a) with true. cbv beta iota.
  rewrite Hx by lia. destruct l as [|y l].
  - subst t. reflexivity.
  - subst t. change (skip_ws (x2c :: ?t)) with (x2c :: t). cbv beta iota.
    change (byte_eqb x2c x7d) with false. change (byte_eqb x2c x2c) with true. cbv beta iota.
    rewrite IH; [reflexivity|discriminate|lia|lia].
Qed.

Lemma skip_ws_nonws b t : is_ws b = false -> skip_ws (b :: t) = b :: t.
Proof. intros H. cbn [skip_ws]. now rewrite H. Qed.

Lemma print_parse_value v : plain v -> reads_back v.
Proof.
  induction v as [|b|t|s|l IH|l IH] using json_ind2; intros Hp fuel depth r Hf Hd; (destruct fuel as [|f]; [cbn in Hf; lia|]).
  - reflexivity.
  - destruct b; reflexivity.
  - inversion Hp.
  - cbn [print_json]. unfold print_str. cbn [parse_value app]. rewrite skip_ws_quote. change (byte_eqb c_quote c_quote) with true. cbv beta iota.
    rewrite <- app_assoc. cbn [app]. now rewrite parse_print_str.
  - inversion Hp as [| | |? Hl|]; subst. cbn [print_json]. change (bs "[") with [x5b]. change (bs "]") with [x5d]. change (bs ",") with [x2c].
    cbn [parse_value app]. change (skip_ws (x5b :: ?t)) with (x5b :: t). cbv beta iota.
    change (byte_eqb x5b c_quote) with false. change (byte_eqb x5b x5b) with true. cbv beta iota.
    destruct depth as [|d]; [cbn in Hd; lia|]. rewrite <- app_assoc. cbn [app].
    destruct l as [|x l]; [reflexivity|].
    assert (Forall reads_back (x :: l)) as Hr. { clear -IH Hl. induction IH; inversion Hl; subst; constructor; auto. }
    pose proof (elems_read (x :: l) Hr ltac:(discriminate) f d r) as E. cbn [jsize jdepth] in Hf, Hd.
    assert (exists b t, sep_by [x2c] (map print_json (x :: l)) ++ x5d :: r = b :: t /\ is_ws b = false /\ byte_eqb b x5d = false) as (b & t & Ebt & W & B).
    { inversion Hl; subst. destruct (print_head x H1) as (b & t & E1 & E2 & E3 & _). exists b. cbn [map].
      destruct l as [|y l]; [exists (t ++ x5d :: r)|exists ((t ++ [x2c] ++ sep_by [x2c] (map print_json (y :: l))) ++ x5d :: r)]; cbn [map]; rewrite ?sep_cons; cbn [sep_by]; rewrite E1; auto. }
    rewrite Ebt in E |- *. rewrite (skip_ws_nonws _ _ W), B, E by lia. reflexivity.
  - inversion Hp as [| | | |? Hl]; subst. cbn [print_json]. change (bs "{") with [x7b]. change (bs "}") with [x7d]. change (bs ",") with [x2c]. change (bs ":") with [x3a].
    change (map (fun kv => print_str (fst kv) ++ [x3a] ++ print_json (snd kv)) l) with (map print_member l).
    cbn [parse_value app]. change (skip_ws (x7b :: ?t)) with (x7b :: t). cbv beta iota.
    change (byte_eqb x7b c_quote) with false. change (byte_eqb x7b x5b) with false. change (byte_eqb x7b x7b) with true. cbv beta iota.
    destruct depth as [|d]; [cbn in Hd; lia|]. rewrite <- app_assoc. cbn [app].
    destruct l as [|x l]; [reflexivity|].
    assert (Forall (fun kv => reads_back (snd kv)) (x :: l)) as Hr. { clear -IH Hl. induction IH; inversion Hl; subst; constructor; auto. }
    pose proof (members_read (x :: l) Hr ltac:(discriminate) f d r) as E. cbn [jsize jdepth] in Hf, Hd.
    assert (exists t, sep_by [x2c] (map print_member (x :: l)) ++ x7d :: r = c_quote :: t) as (t & Ebt).
    { destruct l as [|y l]; cbn [map]; rewrite ?sep_cons; cbn [sep_by]; unfold print_member at 1, print_str; cbn [app]; eexists; reflexivity. }
    rewrite Ebt in E |- *. rewrite skip_ws_quote. change (byte_eqb c_quote x7d) with false. cbv beta iota. rewrite E by lia. reflexivity.
Qed.

Lemma print_size v : plain v -> jsize v <= 2 * length (print_json v).
Proof.
  induction v as [|b|t|s|l IH|l IH] using json_ind2; intros Hp.
  - cbn; lia.
  - destruct b; cbn; lia.
  - inversion Hp.
  - cbn [jsize print_json]. unfold print_str. cbn [length]. lia.
  - inversion Hp as [| | |? Hl|]; subst. cbn [jsize print_json]. rewrite !app_length. change (length (bs "[")) with 1. change (length (bs "]")) with 1.
    assert (fold_right (fun x m => S (jsize x) + m) 0 l <= 2 * length (sep_by (bs ",") (map print_json l)) + 1); [|lia].
    clear Hp. induction IH as [|x l Hx _ IHl]; [cbn; lia|]. inversion Hl as [|? ? P1 P2]; subst. specialize (Hx P1). specialize (IHl P2). cbn [fold_right map].
    destruct l as [|y l]; [cbn [map sep_by fold_right]; lia|]. cbn [map] in *. rewrite sep_cons, !app_length. change (length (bs ",")) with 1. lia.
  - inversion Hp as [| | | |? Hl]; subst. cbn [jsize print_json]. rewrite !app_length. change (length (bs "{")) with 1. change (length (bs "}")) with 1.
    set (pm := fun kv : str * json => print_str (fst kv) ++ bs ":" ++ print_json (snd kv)).
    assert (fold_right (fun kv m => S (jsize (snd kv)) + m) 0 l <= 2 * length (sep_by (bs ",") (map pm l)) + 1); [|lia].
    clear Hp. induction IH as [|x l Hx _ IHl]; [cbn; lia|]. inversion Hl as [|? ? P1 P2]; subst. specialize (Hx P1). specialize (IHl P2). cbn [fold_right map].
    assert (length (pm x) >= length (print_json (snd x)) + 1) as Hpm by (unfold pm; rewrite !app_length; change (length (bs ":")) with 1; lia).
    destruct l as [|y l]; [cbn [map sep_by fold_right]; lia|]. cbn [map] in *. rewrite sep_cons, !app_length. change (length (bs ",")) with 1. clearbody pm. unfold str in *. lia.
Qed.

(** What is printed is read back. *)
Theorem json_round_trip v depth : plain v -> jdepth v <= depth -> parse_json depth (print_json v) = Some v.
Proof.
  intros Hp Hd. unfold parse_json. pose proof (print_parse_value v Hp (2 * length (print_json v) + 2) depth []) as H. rewrite app_nil_r in H.
  rewrite H; [reflexivity| |exact Hd]. pose proof (print_size v Hp). lia.
Qed.
