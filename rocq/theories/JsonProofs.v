(** The parser accepts exactly the texts of the grammar. *)
From Verif Require Import Base Utf8 Json ClientModel ComponentModel JsonSpec.
From Coq Require Import Lia.
Ltac Zify.zify_post_hook ::= Z.div_mod_to_equations.

(** ** Blanks *)
Lemma is_ws_iff b : is_ws b = true <-> In b [x20; x09; x0a; x0d].
Proof. split; [destruct b; vm_compute; intros H; try discriminate H; tauto|]. intros [<-|[<-|[<-|[<-|[]]]]]; reflexivity. Qed.
Lemma skip_ws_split s : exists w, s = w ++ skip_ws s /\ blank w.
Proof.
  induction s as [|b s (w & E & Hw)]; [exists []; split; [reflexivity|constructor]|]. cbn [skip_ws].
  destruct (is_ws b) eqn:Eb.
  - exists (b :: w). split; [cbn [app]; now rewrite <- E|]. constructor; [now apply is_ws_iff|exact Hw].
  - exists []. split; [reflexivity|constructor].
Qed.
Lemma skip_blank w s : blank w -> skip_ws (w ++ s) = skip_ws s.
Proof. induction 1 as [|b w Hb Hw IH]; [reflexivity|]. cbn [app skip_ws]. apply is_ws_iff in Hb. now rewrite Hb. Qed.
Lemma skip_here b s : is_ws b = false -> skip_ws (b :: s) = b :: s.
Proof. intros H. cbn [skip_ws]. now rewrite H. Qed.
Lemma skip_blank_all w : blank w -> skip_ws w = [].
Proof. intros H. rewrite <- (app_nil_r w), skip_blank by exact H. reflexivity. Qed.

(** ** Strings *)
Lemma hex_val_iff h n : hex_val h = Some n <-> hex_is h n.
Proof.
  split.
  - intros H. unfold hex_is. destruct h; vm_compute in H; try discriminate H; injection H as <-; vm_compute; tauto.
  - unfold hex_is. intros H. assert (exists k, N.to_nat n = k) as [k Ek] by eauto. rewrite Ek in H.
    assert (n = N.of_nat k) as -> by lia. clear Ek.
    do 16 (destruct k as [|k]; [destruct H as [H|H]; injection H as <-; reflexivity|]).
    exfalso. destruct H as [H|H]; cbn in H; destruct k; discriminate H.
Qed.
Lemma hex4_iff a b c d n : hex4 a b c d = Some n <-> hex_unit a b c d n.
Proof.
  unfold hex4, hex_unit. split.
  - destruct (hex_val a) as [na|] eqn:Ea; [|discriminate]. destruct (hex_val b) as [nb|] eqn:Eb; [|discriminate].
    destruct (hex_val c) as [nc|] eqn:Ec; [|discriminate]. destruct (hex_val d) as [nd|] eqn:Ed; [|discriminate].
    intros [= <-]. exists na, nb, nc, nd. repeat (split; [now apply hex_val_iff|]). lia.
  - intros (na & nb & nc & nd & Ha & Hb & Hc & Hd & ->). apply hex_val_iff in Ha as ->. apply hex_val_iff in Hb as ->.
    apply hex_val_iff in Hc as ->. apply hex_val_iff in Hd as ->. f_equal. lia.
Qed.
Lemma simple_escape_iff e x : simple_escape e = Some x <-> In (e, x) escapes.
Proof.
  split.
  - intros H. destruct e; vm_compute in H; try discriminate H; injection H as <-; vm_compute; tauto.
  - unfold escapes. cbn [In]. intros H. repeat (destruct H as [H|H]; [injection H as <- <-; reflexivity|]). destruct H.
Qed.
Lemma parse_str_sound n s t r : length s <= n -> parse_str s = Some (t, r) -> exists raw, s = raw ++ x22 :: r /\ string_text raw t.
Proof.
  revert s t r. induction n as [|n IH]; intros s t r Hn.
  { destruct s; [discriminate|cbn in Hn; lia]. }
  destruct s as [|b s]; [discriminate|]. cbn [length] in Hn. cbn [parse_str]. unfold c_quote, c_back.
  destruct (byte_eqb b x22) eqn:Eq.
  { apply byte_eqb_eq in Eq as ->. intros [= <- <-]. exists []. split; [reflexivity|constructor]. }
  assert (forall p s' t r, length s' <= n -> cons_str p (parse_str s') = Some (t, r) -> exists raw t', s' = raw ++ x22 :: r /\ string_text raw t' /\ t = p ++ t') as K.
  { intros p s' t' r' Hl. unfold cons_str. destruct (parse_str s') as [[u r1]|] eqn:E; [|discriminate]. intros [= <- <-].
    destruct (IH s' u r1 Hl E) as (raw & -> & Hr). exists raw, u. auto. }
  destruct (byte_eqb b x5c) eqn:Ec.
  - apply byte_eqb_eq in Ec as ->. destruct s as [|e s]; [discriminate|]. cbn [length] in Hn.
    destruct (byte_eqb e x75) eqn:Eu.
    + apply byte_eqb_eq in Eu as ->. destruct s as [|h1 [|h2 [|h3 [|h4 s]]]]; try discriminate. cbn [length] in Hn.
      destruct (hex4 h1 h2 h3 h4) as [c|] eqn:Eh; [|discriminate]. apply hex4_iff in Eh.
      destruct ((55296 <=? c) && (c <? 56320))%N eqn:Ehi.
      * destruct s as [|k [|u [|g1 [|g2 [|g3 [|g4 s]]]]]]; try discriminate. cbn [length] in Hn.
        destruct (hex4 g1 g2 g3 g4) as [d|] eqn:Eg; [|discriminate]. apply hex4_iff in Eg.
        destruct (byte_eqb k x5c && byte_eqb u x75 && ((56320 <=? d) && (d <? 57344))%N) eqn:Elo; [|discriminate].
        apply andb_prop in Elo as [E1 E2]. apply andb_prop in E1 as [E1 E3]. apply byte_eqb_eq in E1 as ->. apply byte_eqb_eq in E3 as ->.
        intros H. destruct (K _ s t r ltac:(lia) H) as (raw & t' & -> & Hr & ->). eexists. split; [|eapply st_pair; eauto; lia]. reflexivity.
      * destruct ((56320 <=? c) && (c <? 57344))%N eqn:Elo; [discriminate|].
        intros H. destruct (K _ s t r ltac:(lia) H) as (raw & t' & -> & Hr & ->). eexists. split; [|eapply st_unicode; eauto; lia]. reflexivity.
    + destruct (simple_escape e) as [x|] eqn:Ee; [|discriminate]. apply simple_escape_iff in Ee.
      intros H. destruct (K _ s t r ltac:(lia) H) as (raw & t' & -> & Hr & ->). exists (x5c :: e :: raw). split; [reflexivity|]. now apply st_escape.
  - destruct (N.ltb_spec (b2n b) 32); [discriminate|].
    intros Hc. destruct (K _ s t r ltac:(lia) Hc) as (raw & t' & -> & Hr & ->). exists (b :: raw). split; [reflexivity|].
    apply st_char; auto; intros ->; discriminate.
Qed.
Lemma parse_str_complete raw t r : string_text raw t -> parse_str (raw ++ x22 :: r) = Some (t, r).
Proof.
  induction 1 as [|b raw s Hb H1 H2 _ IH|e x raw s He _ IH|h1 h2 h3 h4 c raw s Hh Hc _ IH|h1 h2 h3 h4 g1 g2 g3 g4 hi lo raw s Hh Hg Hhi Hlo _ IH];
    cbn [app parse_str]; unfold c_quote, c_back.
  - reflexivity.
  - destruct (byte_eqb b x22) eqn:E1; [apply byte_eqb_eq in E1; congruence|]. destruct (byte_eqb b x5c) eqn:E2; [apply byte_eqb_eq in E2; congruence|].
    destruct (N.ltb_spec (b2n b) 32); [lia|]. now rewrite IH.
  - change (byte_eqb x5c x22) with false. change (byte_eqb x5c x5c) with true. cbn [app].
    destruct (byte_eqb e x75) eqn:E; [apply byte_eqb_eq in E as ->; exfalso; cbn in He; repeat (destruct He as [He|He]; [discriminate He|]); exact He|].
    apply simple_escape_iff in He as ->. now rewrite IH.
  - change (byte_eqb x5c x22) with false. change (byte_eqb x5c x5c) with true. change (byte_eqb x75 x75) with true. cbn [app].
    apply hex4_iff in Hh as ->. destruct ((55296 <=? c) && (c <? 56320))%N eqn:E1; [lia|].
    destruct ((56320 <=? c) && (c <? 57344))%N eqn:E2; [lia|]. now rewrite IH.
  - change (byte_eqb x5c x22) with false. change (byte_eqb x5c x5c) with true. change (byte_eqb x75 x75) with true. cbn [app].
    apply hex4_iff in Hh as ->. assert ((55296 <=? hi) && (hi <? 56320) = true)%N as -> by lia. apply hex4_iff in Hg as ->.
    change (byte_eqb x5c x5c) with true. change (byte_eqb x75 x75) with true. assert ((56320 <=? lo) && (lo <? 57344) = true)%N as -> by lia.
    cbn [andb]. now rewrite IH.
Qed.

(** ** Numbers *)
Lemma is_dig_iff b : is_dig b = true <-> In b (bs "0123456789").
Proof. split; [destruct b; vm_compute; intros H; try discriminate H; tauto|]. cbn [In bs]. intros H. repeat (destruct H as [<-|H]; [reflexivity|]). destruct H. Qed.
Lemma take_digits_spec s : exists d r, take_digits s = (d, r) /\ s = d ++ r /\ Forall (fun b => In b (bs "0123456789")) d /\
  match r with b :: _ => is_dig b = false | [] => True end.
Proof.
  induction s as [|b s (d & r & E & Hs & Hd & Hr)]; [exists [], []; repeat split; constructor|]. cbn [take_digits].
  destruct (is_dig b) eqn:Eb.
  - rewrite E. exists (b :: d), r. split; [reflexivity|]. split; [cbn; now rewrite <- Hs|]. split; [constructor; [now apply is_dig_iff|exact Hd]|exact Hr].
  - exists [], (b :: s). repeat split; [constructor|exact Eb].
Qed.
(** Nothing that could continue a number. *)
Definition ends_number (r : str) : Prop :=
  match r with [] => True | b :: _ => is_dig b = false /\ b <> x2e /\ b <> x65 /\ b <> x45 end.
Lemma take_digits_app d r : Forall (fun b => In b (bs "0123456789")) d -> match r with b :: _ => is_dig b = false | [] => True end ->
  take_digits (d ++ r) = (d, r).
Proof.
  intros Hd Hr. induction Hd as [|b d Hb Hd IH]; cbn [app take_digits].
  - destruct r as [|b r]; [reflexivity|]. cbn [take_digits]. now rewrite Hr.
  - apply is_dig_iff in Hb. now rewrite Hb, IH.
Qed.
Lemma parse_num_sound s t r : parse_num s = Some (t, r) -> s = t ++ r /\ number_text t.
Proof.
  unfold parse_num.
  assert (exists sign s1, (match s with b :: r => if byte_eqb b x2d then ([b], r) else ([], s) | [] => ([], []) end) = (sign, s1) /\ s = sign ++ s1 /\ (sign = [] \/ sign = bs "-"))
    as (sign & s1 & -> & Hs & Hsign).
  { destruct s as [|b s]; [exists [], []; auto|]. destruct (byte_eqb b x2d) eqn:E; [apply byte_eqb_eq in E as ->; exists [x2d], s; auto|exists [], (b :: s); auto]. }
  destruct (take_digits_spec s1) as (ip & s2 & -> & Hs1 & Hip & _).
  destruct ip as [|z ip']; [discriminate|]. set (ip := z :: ip') in *.
  destruct (byte_eqb z x30 && negb (match ip' with [] => true | _ => false end)) eqn:Ez; [discriminate|].
  assert (ip = bs "0" \/ forall i, ip <> x30 :: i) as Hz.
  { unfold ip. destruct (byte_eqb z x30) eqn:E; [apply byte_eqb_eq in E as ->; destruct ip'; [now left|discriminate]|].
    right. intros i [= -> _]. discriminate E. }
  match goal with |- match ?X with Some _ => _ | None => _ end = _ -> _ =>
    assert (forall fp s3, X = Some (fp, s3) -> s2 = fp ++ s3 /\ (fp = [] \/ exists d, fp = x2e :: d /\ digits d)) as Hf; [|destruct X as [[fp s3]|]; [|discriminate]] end.
  { intros fp s3. destruct s2 as [|p s2]; [intros [= <- <-]; auto|]. destruct (byte_eqb p x2e) eqn:E; [|intros [= <- <-]; auto].
    apply byte_eqb_eq in E as ->. destruct (take_digits_spec s2) as (d & r' & -> & -> & Hd & _). destruct d as [|x d]; [discriminate|].
    intros [= <- <-]. split; [reflexivity|]. right. exists (x :: d). split; [reflexivity|]. split; [discriminate|exact Hd]. }
  destruct (Hf fp s3 eq_refl) as [Hs2 Hfp].
  match goal with |- match ?X with Some _ => _ | None => _ end = _ -> _ =>
    assert (forall ep s4, X = Some (ep, s4) -> s3 = ep ++ s4 /\
      (ep = [] \/ exists e s d, ep = e :: s ++ d /\ (e = x65 \/ e = x45) /\ (s = [] \/ s = bs "+" \/ s = bs "-") /\ digits d)) as He; [|destruct X as [[ep s4]|]; [|discriminate]] end.
  { intros ep s4. destruct s3 as [|e s3]; [intros [= <- <-]; auto|]. destruct (byte_eqb e x65 || byte_eqb e x45) eqn:E; [|intros [= <- <-]; auto].
    assert (e = x65 \/ e = x45) as Hee by (apply orb_prop in E as [E|E]; apply byte_eqb_eq in E; auto). clear E.
    assert (exists sg r1, (match s3 with b :: r' => if byte_eqb b x2b || byte_eqb b x2d then ([b], r') else ([], s3) | [] => ([], []) end) = (sg, r1) /\ s3 = sg ++ r1 /\
      (sg = [] \/ sg = bs "+" \/ sg = bs "-")) as (sg & r1 & -> & -> & Hsg).
    { destruct s3 as [|b s3]; [exists [], []; auto|]. destruct (byte_eqb b x2b || byte_eqb b x2d) eqn:E; [|exists [], (b :: s3); auto].
      exists [b], s3. split; [reflexivity|]. split; [reflexivity|]. right. apply orb_prop in E as [E|E]; apply byte_eqb_eq in E as ->; auto. }
    destruct (take_digits_spec r1) as (d & r' & -> & -> & Hd & _). destruct d as [|x d]; [discriminate|].
    intros [= <- <-]. split; [cbn [app]; now rewrite <- app_assoc|]. right. exists e, sg, (x :: d). repeat split; auto. discriminate. }
  destruct (He ep s4 eq_refl) as [Hs3 Hep]. intros [= <- <-]. split.
  - rewrite Hs, Hs1, Hs2, Hs3. unfold ip. repeat (rewrite <- ?app_assoc; cbn [app]). reflexivity.
  - exists sign, ip, fp, ep. repeat split; auto. discriminate.
Qed.
Lemma digit_not b c : In b (bs "0123456789") -> is_dig c = false -> byte_eqb b c = false.
Proof. intros Hb Hc. destruct (byte_eqb b c) eqn:E; [|reflexivity]. apply byte_eqb_eq in E as ->. apply is_dig_iff in Hb. congruence. Qed.
Lemma parse_num_complete t r : number_text t -> ends_number r -> parse_num (t ++ r) = Some (t, r).
Proof.
  intros (sign & ip & fp & ep & -> & Hsign & [Hne Hip] & Hz & Hfp & Hep) Hr. rewrite <- !app_assoc. unfold parse_num.
  destruct ip as [|z ip']; [congruence|]. inversion Hip as [|? ? Hzd Hip']; subst.
  match goal with |- (let '(_, _) := ?X in _) = _ => assert (X = (sign, (z :: ip') ++ fp ++ ep ++ r)) as -> end.
  { destruct Hsign as [->| ->]; [|reflexivity]. cbn [app]. rewrite (digit_not z x2d); auto. }
  assert (ends_number (ep ++ r) \/ exists e s d, ep = e :: s ++ d /\ (e = x65 \/ e = x45) /\ (s = [] \/ s = bs "+" \/ s = bs "-") /\ digits d) as He
    by (destruct Hep as [->|He]; [left; exact Hr|right; exact He]).
  assert (match ep ++ r with b :: _ => is_dig b = false | [] => True end) as Hd1.
  { destruct He as [He|(e & s & d & -> & [->| ->] & _)]; [|reflexivity|reflexivity]. destruct (ep ++ r); [exact Logic.I|apply He]. }
  assert (match ep ++ r with b :: _ => b <> x2e | [] => True end) as Hd2.
  { destruct He as [He|(e & s & d & -> & [->| ->] & _)]; [|discriminate|discriminate]. destruct (ep ++ r); [exact Logic.I|apply He]. }
  rewrite take_digits_app; [|exact Hip|].
  2: { destruct Hfp as [->|(d & -> & _)]; [exact Hd1|reflexivity]. }
  assert (byte_eqb z x30 && negb (match ip' with [] => true | _ => false end) = false) as ->.
  { destruct (byte_eqb z x30) eqn:E; [|reflexivity]. apply byte_eqb_eq in E as ->. destruct Hz as [Hz|Hz]; [injection Hz as ->; reflexivity|]. exfalso. now apply (Hz ip'). }
  match goal with |- match ?X with Some _ => _ | None => _ end = _ => assert (X = Some (fp, ep ++ r)) as -> end.
  { destruct Hfp as [->|(d & -> & Hdn & Hd)]; cbn [app].
    - destruct (ep ++ r) as [|b q]; [reflexivity|]. destruct (byte_eqb b x2e) eqn:E; [apply byte_eqb_eq in E; congruence|reflexivity].
    - change (byte_eqb x2e x2e) with true. cbv iota. rewrite take_digits_app by assumption. destruct d; [congruence|reflexivity]. }
  match goal with |- match ?X with Some _ => _ | None => _ end = _ => assert (X = Some (ep, r)) as -> end; [|reflexivity].
  destruct Hep as [->|(e & s & d & -> & Hee & Hs & Hdn & Hd)]; cbn [app].
  - destruct r as [|b q]; [reflexivity|]. destruct Hr as (_ & _ & H1 & H2).
    destruct (byte_eqb b x65) eqn:E1; [apply byte_eqb_eq in E1; congruence|]. destruct (byte_eqb b x45) eqn:E2; [apply byte_eqb_eq in E2; congruence|]. reflexivity.
  - assert (byte_eqb e x65 || byte_eqb e x45 = true) as -> by (destruct Hee as [->| ->]; reflexivity). rewrite <- app_assoc.
    match goal with |- (let '(_, _) := ?X in _) = _ => assert (X = (s, d ++ r)) as -> end.
    { destruct Hs as [->|[->| ->]]; try reflexivity. destruct d as [|x d]; [congruence|]. cbn [app]. inversion Hd as [|? ? Hx _]; subst.
      rewrite (digit_not x x2b), (digit_not x x2d); auto. }
    rewrite take_digits_app; [|exact Hd|destruct r; [exact Logic.I|apply Hr]]. destruct d; [congruence|reflexivity].
Qed.

(** ** Values *)
Scheme value_ind3 := Minimality for value_text Sort Prop
  with elements_ind3 := Minimality for elements_text Sort Prop
  with members_ind3 := Minimality for members_text Sort Prop.
Combined Scheme json_text_ind from value_ind3, elements_ind3, members_ind3.

Lemma parse_sound f :
  (forall d s v r, parse_value f d s = Some (v, r) -> exists w c, s = w ++ c ++ r /\ blank w /\ value_text d c v) /\
  (forall d s l r, parse_elems f d s = Some (l, r) -> exists e, s = e ++ x5d :: r /\ elements_text d e l) /\
  (forall d s l r, parse_members f d s = Some (l, r) -> exists e, s = e ++ x7d :: r /\ members_text d e l).
Proof.
  induction f as [|f (IHv & IHe & IHm)]; [repeat split; discriminate|]. split; [|split].
  - intros d s v r. cbn [parse_value]. destruct (skip_ws_split s) as (w & Hs & Hw). destruct (skip_ws s) as [|b q] eqn:Eq; [discriminate|]. unfold c_quote.
    destruct (byte_eqb b x22) eqn:E1.
    { apply byte_eqb_eq in E1 as ->. destruct (parse_str q) as [[t r']|] eqn:Ep; [|discriminate]. intros [= <- <-].
      destruct (parse_str_sound _ q t r' (Nat.le_refl _) Ep) as (raw & -> & Ht). exists w, (x22 :: raw ++ [x22]). split; [|split; [exact Hw|now constructor]].
      rewrite Hs. cbn [app]. now rewrite <- app_assoc. }
    destruct (byte_eqb b x5b) eqn:E2.
    { apply byte_eqb_eq in E2 as ->. destruct d as [|d]; [discriminate|]. destruct (skip_ws_split q) as (w2 & Hq & Hw2).
      destruct (skip_ws q) as [|e q'] eqn:Eq2; [discriminate|]. destruct (byte_eqb e x5d) eqn:E3.
      - apply byte_eqb_eq in E3 as ->. intros [= <- <-]. exists w, (x5b :: w2 ++ [x5d]). split; [|split; [exact Hw|now constructor]].
        rewrite Hs, Hq. cbn [app]. now rewrite <- app_assoc.
      - destruct (parse_elems f d q) as [[l r'']|] eqn:Ee; [|discriminate]. intros [= <- <-].
        destruct (IHe _ _ _ _ Ee) as (el & Hel & Ht). exists w, (x5b :: el ++ [x5d]). split; [|split; [exact Hw|now constructor]].
        rewrite Hs, Hel. cbn [app]. now rewrite <- app_assoc. }
    destruct (byte_eqb b x7b) eqn:E3.
    { apply byte_eqb_eq in E3 as ->. destruct d as [|d]; [discriminate|]. destruct (skip_ws_split q) as (w2 & Hq & Hw2).
      destruct (skip_ws q) as [|e q'] eqn:Eq2; [discriminate|]. destruct (byte_eqb e x7d) eqn:E4.
      - apply byte_eqb_eq in E4 as ->. intros [= <- <-]. exists w, (x7b :: w2 ++ [x7d]). split; [|split; [exact Hw|now constructor]].
        rewrite Hs, Hq. cbn [app]. now rewrite <- app_assoc.
      - destruct (parse_members f d q) as [[l r'']|] eqn:Ee; [|discriminate]. intros [= <- <-].
        destruct (IHm _ _ _ _ Ee) as (el & Hel & Ht). exists w, (x7b :: el ++ [x7d]). split; [|split; [exact Hw|now constructor]].
        rewrite Hs, Hel. cbn [app]. now rewrite <- app_assoc. }
    assert (forall lit v0, value_text d lit v0 -> starts_with lit (b :: q) = true -> length lit = S (length lit - 1) -> forall r', r' = skipn (length lit - 1) q ->
       exists w c, s = w ++ c ++ r' /\ blank w /\ value_text d c v0) as K.
    { intros lit v0 Hv Hst Hl r' ->. apply starts_with_spec in Hst as [u Hu]. exists w, lit. split; [|auto]. rewrite Hs, Hu. f_equal. f_equal.
      destruct lit as [|x lit]; [discriminate|]. cbn [app length] in Hu |- *. injection Hu as _ ->. replace (S (length lit) - 1) with (length lit) by lia. rewrite skipn_app, skipn_all, Nat.sub_diag. reflexivity. }
    destruct (starts_with (bs "null") (b :: q)) eqn:E4; [intros [= <- <-]; apply (K (bs "null")); auto; constructor|].
    destruct (starts_with (bs "true") (b :: q)) eqn:E5; [intros [= <- <-]; apply (K (bs "true")); auto; constructor|].
    destruct (starts_with (bs "false") (b :: q)) eqn:E6; [intros [= <- <-]; apply (K (bs "false")); auto; constructor|].
    destruct (parse_num (b :: q)) as [[t r']|] eqn:En; [|discriminate]. intros [= <- <-]. apply parse_num_sound in En as [En Ht].
    exists w, t. split; [now rewrite Hs, En|]. split; [exact Hw|now constructor].
  - intros d s l r. cbn [parse_elems]. destruct (parse_value f d s) as [[v q]|] eqn:Ev; [|discriminate].
    destruct (IHv _ _ _ _ Ev) as (w & c & -> & Hw & Hv). destruct (skip_ws_split q) as (w2 & Hq & Hw2). destruct (skip_ws q) as [|e q'] eqn:Eq; [discriminate|].
    destruct (byte_eqb e x5d) eqn:E1.
    + apply byte_eqb_eq in E1 as ->. intros [= <- <-]. exists (w ++ c ++ w2). split; [rewrite Hq; now rewrite <- !app_assoc|now constructor].
    + destruct (byte_eqb e x2c) eqn:E2; [|discriminate]. apply byte_eqb_eq in E2 as ->. destruct (parse_elems f d q') as [[l' r'']|] eqn:Ee; [|discriminate].
      intros [= <- <-]. destruct (IHe _ _ _ _ Ee) as (el & -> & Ht). exists (w ++ c ++ w2 ++ x2c :: el). split; [|now constructor].
      rewrite Hq, <- !app_assoc. reflexivity.
  - intros d s l r. cbn [parse_members]. destruct (skip_ws_split s) as (w & Hs & Hw). destruct (skip_ws s) as [|q0 q] eqn:Eq; [discriminate|]. unfold c_quote.
    destruct (byte_eqb q0 x22) eqn:E1; [|discriminate]. apply byte_eqb_eq in E1 as ->. destruct (parse_str q) as [[k r1]|] eqn:Ep; [|discriminate].
    destruct (parse_str_sound _ q k r1 (Nat.le_refl _) Ep) as (raw & -> & Hk). destruct (skip_ws_split r1) as (w1 & Hr1 & Hw1). destruct (skip_ws r1) as [|c r2] eqn:Eq1; [discriminate|].
    destruct (byte_eqb c x3a) eqn:E2; [|discriminate]. apply byte_eqb_eq in E2 as ->. destruct (parse_value f d r2) as [[v r3]|] eqn:Ev; [|discriminate].
    destruct (IHv _ _ _ _ Ev) as (w2 & t & -> & Hw2 & Hv). destruct (skip_ws_split r3) as (w3 & Hr3 & Hw3). destruct (skip_ws r3) as [|e r4] eqn:Eq3; [discriminate|].
    destruct (byte_eqb e x7d) eqn:E3.
    + apply byte_eqb_eq in E3 as ->. intros [= <- <-]. eexists. split; [|exact (mt_last d w raw k w1 w2 t w3 v Hw Hk Hw1 Hw2 Hv Hw3)]. rewrite Hs, Hr1, Hr3. repeat (rewrite <- ?app_assoc; cbn [app]). reflexivity.
    + destruct (byte_eqb e x2c) eqn:E4; [|discriminate]. apply byte_eqb_eq in E4 as ->. destruct (parse_members f d r4) as [[l' r'']|] eqn:Ee; [|discriminate].
      intros [= <- <-]. destruct (IHm _ _ _ _ Ee) as (el & -> & Ht). eexists. split; [|exact (mt_more d w raw k w1 w2 t w3 v el l' Hw Hk Hw1 Hw2 Hv Hw3 Ht)]. rewrite Hs, Hr1, Hr3. repeat (rewrite <- ?app_assoc; cbn [app]). reflexivity.
Qed.

Lemma ends_blank w r : blank w -> ends_number r -> ends_number (w ++ r).
Proof. intros [|b w' Hb _] Hr; [exact Hr|]. cbn [In] in Hb. destruct Hb as [<-|[<-|[<-|[<-|[]]]]]; cbn; repeat split; discriminate. Qed.
Lemma value_start d c v : value_text d c v -> exists b q, c = b :: q /\ is_ws b = false /\ b <> x5d /\ b <> x7d.
Proof.
  destruct 1; try (eexists _, _; split; [reflexivity|]; split; [reflexivity|]; split; discriminate).
  destruct H as (sign & ip & fp & ep & -> & [->| ->] & [Hne Hip] & _).
  - destruct ip as [|b ip]; [congruence|]. inversion Hip as [|? ? Hb _]; subst. eexists _, _. split; [reflexivity|]. apply is_dig_iff in Hb.
    split; [|split; intros ->; discriminate Hb]. destruct (is_ws b) eqn:E; [|reflexivity]. apply is_ws_iff in E. cbn [In] in E. destruct E as [<-|[<-|[<-|[<-|[]]]]]; discriminate Hb.
  - eexists _, _. split; [reflexivity|]. split; [reflexivity|]. split; discriminate.
Qed.
Lemma elements_start d e l : elements_text d e l -> forall r, exists b q, skip_ws (e ++ r) = b :: q /\ b <> x5d.
Proof.
  assert (forall w t v u, blank w -> value_text d t v -> exists b q, skip_ws ((w ++ t ++ u)) = b :: q /\ b <> x5d) as K.
  { intros w t v u Hw Hv. destruct (value_start _ _ _ Hv) as (b & q & -> & Hb & H1 & _). rewrite skip_blank by exact Hw. cbn [app]. rewrite skip_here by exact Hb. eauto. }
  destruct 1; intros r; rewrite <- !app_assoc; eapply K; eauto.
Qed.
Lemma members_start d e l : members_text d e l -> forall r, exists q, skip_ws (e ++ r) = x22 :: q.
Proof. destruct 1; intros r; rewrite <- !app_assoc; rewrite skip_blank by assumption; cbn [app]; eexists; reflexivity. Qed.

Lemma parse_complete :
  (forall d c v, value_text d c v -> forall f w r, blank w -> ends_number r -> 2 * length c <= f -> parse_value f d (w ++ c ++ r) = Some (v, r)) /\
  (forall d e l, elements_text d e l -> forall f r, 2 * length e + 1 <= f -> parse_elems f d (e ++ x5d :: r) = Some (l, r)) /\
  (forall d e l, members_text d e l -> forall f r, 2 * length e + 1 <= f -> parse_members f d (e ++ x7d :: r) = Some (l, r)).
Proof.
  apply json_text_ind.
  - intros d f w r Hw Hr Hf. destruct f as [|f]; [cbn in Hf; lia|]. cbn [parse_value]. rewrite skip_blank by exact Hw. reflexivity.
  - intros d f w r Hw Hr Hf. destruct f as [|f]; [cbn in Hf; lia|]. cbn [parse_value]. rewrite skip_blank by exact Hw. reflexivity.
  - intros d f w r Hw Hr Hf. destruct f as [|f]; [cbn in Hf; lia|]. cbn [parse_value]. rewrite skip_blank by exact Hw. reflexivity.
  - intros d t Ht f w r Hw Hr Hf.
    destruct (value_start d t (JNum t) (vt_number d t Ht)) as (b & q & Et & Hb & _). destruct f as [|f]; [rewrite Et in Hf; cbn in Hf; lia|].
    cbn [parse_value]. rewrite skip_blank by exact Hw.
    assert (b = x2d \/ is_dig b = true) as Hbd.
    { destruct Ht as (sign & ip & fp & ep & E & [->| ->] & [Hne Hip] & _); rewrite Et in E; [|injection E as -> _; now left].
      destruct ip as [|z ip]; [congruence|]. injection E as -> _. right. inversion Hip as [|? ? Hz _]; subst. now apply is_dig_iff. }
    pose proof (parse_num_complete t r Ht Hr) as Hp. rewrite Et in *. cbn [app] in *. rewrite skip_here by exact Hb.
    destruct (byte_eqb b c_quote) eqn:E1; [apply byte_eqb_eq in E1 as ->; destruct Hbd; discriminate|].
    destruct (byte_eqb b x5b) eqn:E2; [apply byte_eqb_eq in E2 as ->; destruct Hbd; discriminate|].
    destruct (byte_eqb b x7b) eqn:E3; [apply byte_eqb_eq in E3 as ->; destruct Hbd; discriminate|].
    assert (forall x lit, is_dig x = false -> x <> x2d -> starts_with (x :: lit) (b :: q ++ r) = false) as K.
    { intros x lit Hx Hx2. cbn [starts_with]. destruct (byte_eqb x b) eqn:E; [|reflexivity]. apply byte_eqb_eq in E as ->. destruct Hbd; congruence. }
    change (bs "null") with (x6e :: bs "ull"). change (bs "true") with (x74 :: bs "rue"). change (bs "false") with (x66 :: bs "alse").
    rewrite !K by (reflexivity || discriminate). now rewrite Hp.
  - intros d raw s Hs f w r Hw Hr Hf. destruct f as [|f]; [cbn in Hf; lia|]. cbn [parse_value]. rewrite skip_blank by exact Hw. cbn [app].
    rewrite skip_here by reflexivity. unfold c_quote. change (byte_eqb x22 x22) with true. cbv iota. rewrite <- app_assoc. cbn [app]. now rewrite (parse_str_complete raw s).
  - intros d w0 Hw0 f w r Hw Hr Hf. destruct f as [|f]; [cbn in Hf; lia|]. cbn [parse_value]. rewrite skip_blank by exact Hw. cbn [app].
    rewrite skip_here by reflexivity. change (byte_eqb x5b c_quote) with false. change (byte_eqb x5b x5b) with true. cbv iota. rewrite <- app_assoc.
    rewrite skip_blank by exact Hw0. reflexivity.
  - intros d e l He IH f w r Hw Hr Hf. destruct f as [|f]; [cbn in Hf; lia|]. cbn [parse_value]. rewrite skip_blank by exact Hw. cbn [app].
    rewrite skip_here by reflexivity. change (byte_eqb x5b c_quote) with false. change (byte_eqb x5b x5b) with true. cbv iota. rewrite <- app_assoc. cbn [app].
    destruct (elements_start d e l He (x5d :: r)) as (b & q & -> & Hb). destruct (byte_eqb b x5d) eqn:E; [apply byte_eqb_eq in E; congruence|].
    rewrite IH; [reflexivity|]. cbn [length] in Hf. rewrite app_length in Hf. cbn [length] in Hf. lia.
  - intros d w0 Hw0 f w r Hw Hr Hf. destruct f as [|f]; [cbn in Hf; lia|]. cbn [parse_value]. rewrite skip_blank by exact Hw. cbn [app].
    rewrite skip_here by reflexivity. change (byte_eqb x7b c_quote) with false. change (byte_eqb x7b x5b) with false. change (byte_eqb x7b x7b) with true. cbv iota. rewrite <- app_assoc.
    rewrite skip_blank by exact Hw0. reflexivity.
  - intros d e l He IH f w r Hw Hr Hf. destruct f as [|f]; [cbn in Hf; lia|]. cbn [parse_value]. rewrite skip_blank by exact Hw. cbn [app].
    rewrite skip_here by reflexivity. change (byte_eqb x7b c_quote) with false. change (byte_eqb x7b x5b) with false. change (byte_eqb x7b x7b) with true. cbv iota. rewrite <- app_assoc. cbn [app].
    destruct (members_start d e l He (x7d :: r)) as (q & ->). change (byte_eqb x22 x7d) with false. cbv iota.
    rewrite IH; [reflexivity|]. cbn [length] in Hf. rewrite app_length in Hf. cbn [length] in Hf. lia.
  - intros d w t w' v Hw _ IH Hw' f r Hf. destruct f as [|f]; [lia|]. cbn [parse_elems]. rewrite !app_length in Hf. rewrite <- !app_assoc.
    rewrite IH; [|exact Hw|apply ends_blank; [exact Hw'|cbn; repeat split; discriminate]|lia]. rewrite skip_blank by exact Hw'. reflexivity.
  - intros d w t w' v e l Hw _ IH Hw' _ IHe f r Hf. destruct f as [|f]; [lia|]. cbn [parse_elems]. rewrite !app_length in Hf. cbn [length] in Hf.
    repeat (rewrite <- !app_assoc; cbn [app]).
    rewrite IH; [|exact Hw|apply ends_blank; [exact Hw'|cbn; repeat split; discriminate]|lia]. rewrite skip_blank by exact Hw'. rewrite skip_here by reflexivity.
    change (byte_eqb x2c x5d) with false. change (byte_eqb x2c x2c) with true. cbv iota. rewrite IHe; [reflexivity|lia].
  - intros d w raw k w1 w2 t w' v Hw Hk Hw1 Hw2 _ IH Hw' f r Hf. destruct f as [|f]; [lia|]. cbn [parse_members].
    rewrite !app_length in Hf. cbn [length] in Hf. rewrite !app_length in Hf. cbn [length] in Hf. repeat (rewrite <- ?app_assoc; cbn [app]).
    rewrite skip_blank by exact Hw. rewrite skip_here by reflexivity. unfold c_quote. change (byte_eqb x22 x22) with true. cbv iota.
    rewrite (parse_str_complete raw k) by exact Hk. rewrite skip_blank by exact Hw1. rewrite skip_here by reflexivity. change (byte_eqb x3a x3a) with true. cbv iota.
    rewrite IH; [|exact Hw2|apply ends_blank; [exact Hw'|cbn; repeat split; discriminate]|lia]. rewrite skip_blank by exact Hw'. reflexivity.
  - intros d w raw k w1 w2 t w' v e l Hw Hk Hw1 Hw2 _ IH Hw' _ IHm f r Hf. destruct f as [|f]; [lia|]. cbn [parse_members].
    rewrite !app_length in Hf. cbn [length] in Hf. rewrite !app_length in Hf. cbn [length] in Hf. repeat (rewrite <- ?app_assoc; cbn [app]).
    rewrite skip_blank by exact Hw. rewrite skip_here by reflexivity. unfold c_quote. change (byte_eqb x22 x22) with true. cbv iota.
    rewrite (parse_str_complete raw k) by exact Hk. rewrite skip_blank by exact Hw1. rewrite skip_here by reflexivity. change (byte_eqb x3a x3a) with true. cbv iota.
    rewrite IH; [|exact Hw2|apply ends_blank; [exact Hw'|cbn; repeat split; discriminate]|lia]. rewrite skip_blank by exact Hw'. rewrite skip_here by reflexivity.
    change (byte_eqb x2c x7d) with false. change (byte_eqb x2c x2c) with true. cbv iota. rewrite IHm; [reflexivity|lia].
Qed.

Theorem parse_json_iff d t v : parse_json d t = Some v <-> json_text d t v.
Proof.
  unfold parse_json, json_text. split.
  - destruct (parse_value _ d t) as [[v' r]|] eqn:E; [|discriminate]. destruct (skip_ws r) eqn:Er; [|discriminate]. intros [= <-].
    destruct (parse_sound (2 * length t + 2)) as (H & _). destruct (H _ _ _ _ E) as (w & c & -> & Hw & Hv).
    destruct (skip_ws_split r) as (w' & Hr & Hw'). rewrite Er, app_nil_r in Hr. subst r. exists w, c, w'. auto.
  - intros (w & c & w' & -> & Hw & Hv & Hw'). destruct parse_complete as (H & _).
    assert (ends_number w') as He by (rewrite <- (app_nil_r w'); apply ends_blank; [exact Hw'|exact Logic.I]).
    rewrite (H d c v Hv); [now rewrite skip_blank_all|exact Hw|exact He|]. rewrite !app_length. lia.
Qed.

(** ** Messages of the browser *)
Lemma no_dup_cons k kv l : no_dup_key k (kv :: l) = true ->
  no_dup_key k l = true /\ (str_eqb k (fst kv) = true -> no_member k l).
Proof.
  unfold no_dup_key. cbn [filter]. destruct (str_eqb k (fst kv)) eqn:E; cbn [length]; intros H; apply Nat.leb_le in H.
  - split; [apply Nat.leb_le; lia|]. intros _ Hin. apply in_map_iff in Hin as ([k' v] & Hk & Hin). cbn in Hk. subst k'.
    assert (In (k, v) (filter (fun kv => str_eqb k (fst kv)) l)) as Hf by (apply filter_In; split; [exact Hin|apply str_eqb_refl]).
    destruct (filter _ l); [destruct Hf|cbn in H; lia].
  - split; [now apply Nat.leb_le|discriminate].
Qed.
Lemma prop_iff k l : (prop k l = None <-> no_member k l) /\
  (forall v, no_dup_key k l = true /\ prop k l = Some v <-> one_member k v l).
Proof.
  induction l as [|[k' x] l [IHn IHv]].
  - split; [split; [intros _ []|reflexivity]|]. intros v. split; [intros [_ H]; discriminate|]. intros (a & b & H & _). destruct a; discriminate.
  - cbn [prop]. split.
    + unfold no_member in *. cbn [map fst In]. destruct (prop k l) as [y|] eqn:E.
      * split; [discriminate|]. intros H. assert (Some y = None) by (apply IHn; tauto). discriminate.
      * destruct (str_eqb k k') eqn:Ek; [apply str_eqb_eq in Ek as ->; split; [discriminate|intros H; exfalso; auto]|].
        apply str_eqb_neq in Ek. split; [|reflexivity]. intros _ [H|H]; [congruence|]. now apply IHn in H.
    + intros v. split.
      * intros [Hd Hp]. apply no_dup_cons in Hd as [Hd Hh]. cbn [fst] in Hh. destruct (prop k l) as [y|] eqn:E.
        -- injection Hp as ->. destruct (proj1 (IHv v) (conj Hd eq_refl)) as (a & b & -> & Ha & Hb). exists ((k', x) :: a), b. split; [reflexivity|]. split; [|exact Hb].
           cbn [map fst]. intros [->|H]; [|now apply Ha]. apply (Hh (str_eqb_refl k)). rewrite map_app. apply in_or_app. right. left. reflexivity.
        -- destruct (str_eqb k k') eqn:Ek; [|discriminate]. apply str_eqb_eq in Ek as <-. injection Hp as <-. exists [], l. split; [reflexivity|]. split; [intros []|now apply IHn].
      * intros (a & b & E & Ha & Hb). destruct a as [|[k2 x2] a]; cbn [app] in E; injection E as -> -> ->.
        -- assert (prop k b = None) as -> by now apply IHn. rewrite str_eqb_refl. split; [|reflexivity]. unfold no_dup_key. cbn [filter fst]. rewrite str_eqb_refl.
           assert (filter (fun kv : str * json => str_eqb k (fst kv)) b = []) as ->; [|reflexivity].
           destruct (filter _ b) as [|[k3 y] q] eqn:F; [reflexivity|]. exfalso. assert (In (k3, y) ((k3, y) :: q)) as Hi by now left. rewrite <- F in Hi.
           apply filter_In in Hi as [Hi Hk]. apply str_eqb_eq in Hk. cbn in Hk. subst k3. apply Hb. apply in_map_iff. now exists (k, y).
        -- cbn [map fst In] in Ha. assert (one_member k v (a ++ (k, v) :: b)) as Ho by (exists a, b; tauto). apply IHv in Ho as [Hd ->]. split; [|reflexivity].
           unfold no_dup_key. cbn [filter fst]. destruct (str_eqb k k2) eqn:Ek; [apply str_eqb_eq in Ek as ->; tauto|exact Hd].
Qed.
Lemma no_member_dup k l : no_member k l -> no_dup_key k l = true.
Proof.
  intros H. unfold no_dup_key. destruct (filter (fun kv : str * json => str_eqb k (fst kv)) l) as [|[k3 y] q] eqn:F; [reflexivity|].
  exfalso. assert (In (k3, y) ((k3, y) :: q)) as Hi by now left. rewrite <- F in Hi.
  apply filter_In in Hi as [Hi Hk]. apply str_eqb_eq in Hk. cbn in Hk. subst k3. apply H. apply in_map_iff. now exists (k, y).
Qed.
Lemma payload_iff v o : decode_payload_opt v = Some o <-> payload_means v o.
Proof.
  split.
  - destruct v as [| | | |l|l]; cbn [decode_payload_opt decode_payload].
    + intros [= <-]. constructor.
    + discriminate.
    + discriminate.
    + discriminate.
    + destruct l as [|[| | |s| |] [|]]; try discriminate. intros [= <-]. constructor.
    + destruct (no_dup_key (bs "value") l) eqn:E; [|discriminate]. unfold str_prop. destruct (prop (bs "value") l) as [[| | |s| |]|] eqn:Ep; try discriminate.
      intros [= <-]. constructor. now apply prop_iff.
  - destruct 1 as [|l s H|s]; [reflexivity| |reflexivity]. apply prop_iff in H as [H1 H2]. cbn [decode_payload_opt decode_payload]. unfold str_prop. now rewrite H1, H2.
Qed.
Lemma decode_iff v name o : decode_client v = Some (name, o) <-> message_means v name o.
Proof.
  split.
  - destruct v as [| | | |l|l]; cbn [decode_client]; try discriminate.
    + destruct l as [|[| | |n| |] [|p [|]]]; try discriminate. destruct (decode_payload_opt p) eqn:E; [|discriminate]. intros [= <- <-]. constructor. now apply payload_iff.
    + destruct (no_dup_key (bs "listener") l) eqn:E1; [|discriminate]. destruct (no_dup_key (bs "payload") l) eqn:E2; [|discriminate]. cbn [andb]. unfold str_prop.
      destruct (prop (bs "listener") l) as [[| | |n| |]|] eqn:E3; try discriminate. assert (one_member (bs "listener") (JStr n) l) as H1 by now apply prop_iff.
      destruct (prop (bs "payload") l) as [p|] eqn:E4.
      * destruct (decode_payload_opt p) eqn:E5; [|discriminate]. intros [= <- <-]. apply payload_iff in E5. apply mm_payload with p; auto. now apply prop_iff.
      * intros [= <- <-]. constructor; auto. now apply prop_iff.
  - destruct 1 as [l name H1 H2|l name p o H1 H2 H3|name p o H3]; cbn [decode_client]; unfold str_prop.
    + apply prop_iff in H1 as [-> ->]. rewrite (no_member_dup _ _ H2). apply prop_iff in H2. now rewrite H2.
    + apply prop_iff in H1 as [-> ->]. apply prop_iff in H2 as [-> ->]. apply payload_iff in H3. now rewrite H3.
    + apply payload_iff in H3. now rewrite H3.
Qed.
Theorem says_iff t name o : client_message t = Some (name, o) <-> says t name o.
Proof.
  unfold client_message, says. split.
  - destruct (parse_json 127 t) as [v|] eqn:E; [|discriminate]. intros H. exists v. split; [now apply parse_json_iff|now apply decode_iff].
  - intros (v & Hv & Hm). apply parse_json_iff in Hv. rewrite Hv. now apply decode_iff.
Qed.
Ltac unsay := repeat match goal with H : says _ _ _ |- _ => apply says_iff in H end.
