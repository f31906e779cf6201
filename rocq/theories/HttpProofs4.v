(** Proofs about the HTTP model, part 4: encoding, sorting, MIME. *)
From Coq Require Import Sorting.Sorted.
From Verif Require Import Base HMap Num Utf8 Io IoProofs HttpModel HttpSpec Httparse HttpProofs HttpProofs2 HttpProofs3.
Ltac Zify.zify_post_hook ::= Z.div_mod_to_equations.

(* ------------------------------------------------------------------ *)
(** ** Order *)
Lemma str_leb_total a b : str_leb a b = true \/ str_leb b a = true.
Proof.
  revert b. induction a as [|x a IH]; intros [|y b]; cbn [str_leb]; auto.
  destruct (N.ltb_spec (b2n x) (b2n y)); auto. destruct (N.ltb_spec (b2n y) (b2n x)); auto.
  assert (x = y) as -> by (apply b2n_inj; lia). rewrite byte_eqb_refl. cbn [andb]. apply IH.
Qed.
Lemma str_leb_lt a b : str_leb a b = true <-> a = b \/ bytes_lt a b.
Proof.
  revert b. induction a as [|x a IH]; intros b; cbn [str_leb].
  - split; [|auto]. intros _. destruct b as [|y b]; [now left|right; left; exists y, b; reflexivity].
  - destruct b as [|y b].
    + split; [discriminate|]. intros [H|[(y & b' & H)|(p & u & v & a' & b' & _ & H & _)]]; [discriminate|discriminate|destruct p; discriminate].
    + destruct (N.ltb_spec (b2n x) (b2n y)) as [H|H].
      { split; [|auto]. intros _. right. right. exists [], x, y, a, b. auto. }
      rewrite andb_true_iff, byte_eqb_eq, IH. split.
      * intros [-> [->|[(z & b' & ->)|(p & u & v & a' & b' & -> & -> & Hlt)]]]; [now left|right; left; exists z, b'; reflexivity|].
        right. right. exists (y :: p), u, v, a', b'. auto.
      * intros [E|[(z & b' & E)|(p & u & v & a' & b' & E1 & E2 & Hlt)]].
        -- injection E as -> ->. auto.
        -- cbn in E. injection E as -> ->. split; [reflexivity|]. right. left. eauto.
        -- destruct p as [|c p]; cbn in E1, E2; injection E1 as -> ->; injection E2 as E2 ->.
           ++ subst v. lia.
           ++ split; [congruence|]. right. right. exists p, u, v, a', b'. auto.
Qed.
Lemma str_leb_antisym a b : str_leb a b = true -> str_leb b a = true -> a = b.
Proof.
  revert b. induction a as [|x a IH]; intros [|y b]; cbn [str_leb]; try reflexivity; try discriminate.
  destruct (N.ltb_spec (b2n x) (b2n y)), (N.ltb_spec (b2n y) (b2n x)); try lia.
  - intros _ H'. apply andb_true_iff in H' as [H' _]. apply byte_eqb_eq in H' as ->. lia.
  - intros H'. apply andb_true_iff in H' as [H' _]. apply byte_eqb_eq in H' as ->. lia.
  - intros H1 H2. apply andb_true_iff in H1 as [E H1], H2 as [_ H2]. apply byte_eqb_eq in E as ->. f_equal. auto.
Qed.
Lemma str_leb_trans a b c : str_leb a b = true -> str_leb b c = true -> str_leb a c = true.
Proof.
  revert b c. induction a as [|x a IH]; intros [|y b] [|z c]; cbn [str_leb]; try reflexivity; try discriminate.
  destruct (N.ltb_spec (b2n x) (b2n y)), (N.ltb_spec (b2n y) (b2n z)), (N.ltb_spec (b2n x) (b2n z)); auto; try lia.
  - intros _ H'. apply andb_true_iff in H' as [H' _]. apply byte_eqb_eq in H' as ->. lia.
  - intros H'. apply andb_true_iff in H' as [H' _]. apply byte_eqb_eq in H' as ->. lia.
  - intros H' H2. apply andb_true_iff in H' as [E H']. apply andb_true_iff in H2 as [E2 H2].
    apply byte_eqb_eq in E as ->. apply byte_eqb_eq in E2 as ->. rewrite byte_eqb_refl. cbn. eauto.
Qed.

Definition key_le (a b : str * str) : Prop := str_leb (fst a) (fst b) = true.
Definition key_lt (a b : str * str) : Prop := bytes_lt (fst a) (fst b).

Lemma sort_insert_perm kv l : Permutation (kv :: l) (sort_insert kv l).
Proof.
  induction l as [|kv' l IH]; cbn [sort_insert]; [reflexivity|]. destruct (str_leb (fst kv) (fst kv')); [reflexivity|].
  etransitivity; [apply perm_swap|]. now constructor.
Qed.
Lemma sort_headers_perm l : Permutation l (sort_headers l).
Proof.
  induction l as [|kv l IH]; cbn [sort_headers]; [reflexivity|].
  etransitivity; [constructor; exact IH|]. apply sort_insert_perm.
Qed.
Lemma sort_insert_sorted kv l : StronglySorted key_le l -> StronglySorted key_le (sort_insert kv l).
Proof.
  induction 1 as [|kv' l Hs IH Hf]; cbn [sort_insert]; [repeat constructor|].
  destruct (str_leb (fst kv) (fst kv')) eqn:E.
  - constructor; [now constructor|]. constructor; [exact E|]. eapply Forall_impl; [|exact Hf]. intros x Hx. unfold key_le in *. eapply str_leb_trans; eauto.
  - constructor; [exact IH|]. eapply Permutation_Forall; [apply sort_insert_perm|]. constructor; [|exact Hf].
    unfold key_le. destruct (str_leb_total (fst kv) (fst kv')); congruence.
Qed.
Lemma sort_headers_sorted l : StronglySorted key_le (sort_headers l).
Proof. induction l as [|kv l IH]; cbn [sort_headers]; [constructor|]. now apply sort_insert_sorted. Qed.
Lemma sorted_strict l : NoDup (map fst l) -> StronglySorted key_le l -> StronglySorted key_lt l.
Proof.
  intros Hn H. induction H as [|kv l Hs IH Hf]; constructor.
  - apply IH. now inversion Hn.
  - inversion Hn as [|? ? Hni Hn']; subst. rewrite Forall_forall in *. intros kv' Hin. specialize (Hf kv' Hin).
    apply str_leb_lt in Hf as [E|E]; [|exact E]. destruct Hni. rewrite E. now apply in_map.
Qed.
Lemma sorted_unique l1 l2 : NoDup (map fst l1) -> Permutation l1 l2 ->
  StronglySorted key_le l1 -> StronglySorted key_le l2 -> l1 = l2.
Proof.
  intros Hn P H1. revert l2 P. induction H1 as [|a l1 Hs1 IH Hf1]; intros l2 P H2.
  - now apply Permutation_nil in P.
  - destruct l2 as [|b l2]; [now apply Permutation_sym, Permutation_nil in P|].
    inversion H2 as [|? ? Hs2 Hf2]; subst. inversion Hn as [|? ? Hni Hn']; subst.
    assert (a = b) as ->.
    { assert (In a (b :: l2)) as Ha by (eapply Permutation_in; [exact P|now left]).
      assert (In b (a :: l1)) as Hb by (eapply Permutation_in; [symmetry; exact P|now left]).
      destruct Ha as [->|Ha]; [reflexivity|]. destruct Hb as [->|Hb]; [reflexivity|].
      rewrite Forall_forall in Hf1, Hf2. pose proof (str_leb_antisym _ _ (Hf1 b Hb) (Hf2 a Ha)) as E.
      destruct Hni. rewrite E. now apply in_map. }
    f_equal. apply IH; auto. now apply Permutation_cons_inv in P.
Qed.

Lemma sort_headers_canonical l1 l2 : hm_wf l1 -> Permutation l1 l2 -> sort_headers l1 = sort_headers l2.
Proof.
  intros W P. apply sorted_unique.
  - eapply Permutation_NoDup; [|exact W]. apply Permutation_map, sort_headers_perm.
  - rewrite <- (sort_headers_perm l1), <- (sort_headers_perm l2). exact P.
  - apply sort_headers_sorted.
  - apply sort_headers_sorted.
Qed.

(* ------------------------------------------------------------------ *)
(** ** Encoding *)

Lemma encode_exact sz r chunks b' : drain sz (rs_body r) = (chunks, (Ok tt, b')) ->
  encode sz r None =
  (bs "HTTP/1.1 " ++ dec (rs_status r) ++ bs " " ++ rs_reason r ++ CRLF ++
   flat_map header_line (sort_headers (rs_headers r)) ++ CRLF ++ concat chunks, Ok tt).
Proof.
  intros E. unfold encode. rewrite E, write_calls_none. f_equal. cbn [app concat]. rewrite !concat_app. cbn [concat app].
  rewrite flat_map_concat_map, <- !app_assoc. reflexivity.
Qed.

(** A transport failing after [n] bytes shows exactly the first [n] bytes. *)
Lemma encode_failing sz r n wire res : encode sz r None = (wire, res) ->
  encode sz r (Some n) = (firstn n wire, if Nat.leb (length wire) n then res else Err EOther).
Proof.
  unfold encode. destruct (drain sz (rs_body r)) as [chunks [copied b']].
  rewrite write_calls_none, write_calls_some. now intros [= <- <-].
Qed.

Lemma request_write_exact {U} (ev : env U) sz r chunks b' : drain sz (rq_body r) = (chunks, (Ok tt, b')) ->
  request_write ev sz r None =
  (method_text (rq_method r) ++ bs " " ++ url_path ev (rq_url r) ++ bs " HTTP/1.1" ++ CRLF ++
   flat_map header_line (rq_headers r) ++ CRLF ++ concat chunks, Ok tt).
Proof.
  intros E. unfold request_write. rewrite E, write_calls_none. f_equal. cbn [app concat]. rewrite !concat_app. cbn [concat app].
  rewrite flat_map_concat_map, <- !app_assoc. reflexivity.
Qed.

Lemma header_line_field kv : header_line kv = field_text (plain_field kv).
Proof. unfold header_line, field_text, plain_field. cbn [f_name f_pre f_value f_post]. reflexivity. Qed.
Lemma header_lines_fields kvs : flat_map header_line kvs = flat_map field_text (map plain_field kvs).
Proof. induction kvs as [|kv kvs IH]; cbn [flat_map map]; [reflexivity|]. now rewrite IH, header_line_field. Qed.
Lemma plain_pairs kvs : map field_pair (map plain_field kvs) = kvs.
Proof. rewrite map_map. induction kvs as [|[k v] kvs IH]; cbn; [reflexivity|]. now rewrite IH. Qed.

Lemma dec_code code : (100 <= code <= 999)%N -> dec code = code_text code.
Proof.
  intros H. assert (forallb (fun n => str_eqb (dec (N.of_nat n)) (code_text (N.of_nat n))) (seq 100 900) = true) as F by (vm_compute; reflexivity).
  rewrite forallb_forall in F. specialize (F (N.to_nat code)). rewrite N2Nat.id in F. apply str_eqb_eq, F. apply in_seq. lia.
Qed.

(* ------------------------------------------------------------------ *)
(** ** MIME *)
Lemma unquote_plain c r : c <> x22 -> c <> x5c -> unquote (c :: r) = option_map (fun p => (c :: fst p, snd p)) (unquote r).
Proof. intros H1 H2. destruct c; try reflexivity; congruence. Qed.
Lemma unquote_escaped v rest : unquote (escape_value v ++ x22 :: rest) = Some (v, rest).
Proof.
  induction v as [|c v IH]; [reflexivity|]. unfold escape_value in *. cbn [flat_map]. unfold escape_byte at 1.
  destruct (byte_eqb c x22) eqn:E1.
  { apply byte_eqb_eq in E1 as ->. cbn [orb app]. cbn [unquote]. rewrite <- app_assoc || idtac. now rewrite IH. }
  destruct (byte_eqb c x5c) eqn:E2.
  { apply byte_eqb_eq in E2 as ->. cbn [orb app unquote]. now rewrite IH. }
  cbn [orb app]. apply byte_eqb_neq in E1, E2. rewrite unquote_plain by auto. now rewrite IH.
Qed.

Lemma until_app c a b : ~ In c a -> until_byte c (a ++ c :: b) = (a, c :: b).
Proof.
  induction a as [|x a IH]; intros H; cbn [app until_byte]; [now rewrite byte_eqb_refl|].
  destruct (byte_eqb x c) eqn:E; [apply byte_eqb_eq in E as ->; destruct H; now left|].
  rewrite IH; auto. intros Hin. apply H. now right.
Qed.
Lemma until_end c a : ~ In c a -> until_byte c a = (a, []).
Proof.
  induction a as [|x a IH]; intros H; cbn [until_byte]; [reflexivity|].
  destruct (byte_eqb x c) eqn:E; [apply byte_eqb_eq in E as ->; destruct H; now left|].
  rewrite IH; auto. intros Hin. apply H. now right.
Qed.

(** The text of a parameter list starts with a semicolon or is empty. *)
Lemma params_text_cases ps : flat_map format_param ps = [] \/ exists t, flat_map format_param ps = x3b :: t.
Proof.
  destruct ps as [|[n v] ps]; [now left|right]. cbn [flat_map]. unfold format_param.
  destruct (_ && _); eexists; reflexivity.
Qed.
Lemma until_semi a ps : ~ In x3b a -> until_byte x3b (a ++ flat_map format_param ps) = (a, flat_map format_param ps).
Proof.
  intros H. destruct (params_text_cases ps) as [E|(t & E)]; rewrite E.
  - rewrite app_nil_r. now apply until_end.
  - now apply until_app.
Qed.

Lemma token_not c v : is_token_byte c = false -> forallb is_token_byte v = true -> ~ In c v.
Proof. intros H F Hin. rewrite forallb_forall in F. apply F in Hin. congruence. Qed.

Lemma format_param_length p : 3 <= length (format_param p).
Proof. destruct p as [n v]. unfold format_param. destruct (_ && _) eqn:E; repeat (rewrite app_length; cbn [length]); 
  rewrite ?app_length; cbn [length bs]; try (change (length (bs ";")) with 1; change (length (bs "=")) with 1; change (length (bs "=""")) with 2).
  - destruct v; [rewrite andb_false_r in E; discriminate|]. cbn. lia.
  - lia.
Qed.

Lemma mime_params_read ps n : Forall (fun p => ~ In x3d (fst p)) ps -> length (flat_map format_param ps) <= n ->
  mime_params n (flat_map format_param ps) = Some ps.
Proof.
  intros H. revert n. induction H as [|[name v] ps Hn Hps IH]; intros n Hl.
  - destruct n; reflexivity.
  - cbn [flat_map] in *. rewrite app_length in Hl. pose proof (format_param_length (name, v)) as H3.
    destruct n as [|n]; [lia|]. unfold format_param at 1.
    destruct (forallb is_token_byte v && negb (match v with [] => true | _ => false end)) eqn:E.
    + apply andb_true_iff in E as [Ht Hne]. rewrite <- !app_assoc.
      change (bs ";" ++ ?x) with (x3b :: x). change (bs "=" ++ ?x) with (x3d :: x). cbn [mime_params].
      cbn [fst] in Hn. rewrite until_app by exact Hn.
      assert (forall r, v ++ r <> [] /\ exists c r', v ++ r = c :: r' /\ c <> x22) as Hv.
      { intros r. destruct v as [|c v]; [discriminate|]. split; [discriminate|]. exists c, (v ++ r). split; [reflexivity|].
        intros ->. cbn in Ht. discriminate. }
      destruct (Hv (flat_map format_param ps)) as [_ (c & r' & Ec & Hc)].
      assert (mime_params n (flat_map format_param ps) = Some ps) as Hrec by (apply IH; lia).
      pose proof (until_semi v ps (token_not x3b v eq_refl Ht)) as Hu. rewrite Ec in *.
      destruct c; try (rewrite Hu, Hrec; reflexivity). congruence.
    + rewrite <- !app_assoc. change (bs ";" ++ ?x) with (x3b :: x). change (bs "=""" ++ ?x) with (x3d :: x22 :: x). cbn [mime_params].
      cbn [fst] in Hn. rewrite until_app by exact Hn. change (bs """" ++ ?x) with (x22 :: x).
      rewrite unquote_escaped, IH by lia. reflexivity.
Qed.

Definition all_params (m : mime) : list (str * str) :=
  (if is_utf8_mime m then [(bs "charset", bs "utf-8")] else []) ++ params m.
Lemma mime_read_format m : ~ In x3b (essence m) -> Forall (fun p => ~ In x3d (fst p)) (params m) ->
  mime_read (mime_format m) = Some (essence m, all_params m).
Proof.
  intros He Hp. unfold mime_format.
  assert ((if is_utf8_mime m then bs ";charset=utf-8" else []) ++ flat_map format_param (params m) = flat_map format_param (all_params m)) as ->.
  { unfold all_params. rewrite flat_map_app. f_equal. destruct (is_utf8_mime m); reflexivity. }
  unfold mime_read. rewrite until_semi by exact He. rewrite mime_params_read; [reflexivity| |rewrite app_length; lia].
  unfold all_params. apply Forall_app. split; [|exact Hp]. destruct (is_utf8_mime m); [|constructor]. repeat constructor.
  cbn. intuition discriminate.
Qed.
