(** Server-side rendering: C64. *)
From Verif Require Import Base HMap DomModel DomSpec DomProofs RenderModel RenderSpec.

Lemma tokens_app st s r : tokens st (s ++ r) =
  let '(s1, o1) := tokens st s in let '(s2, o2) := tokens s1 r in (s2, o1 ++ o2).
Proof.
  revert st. induction s as [|c s IH]; intros st; cbn [app tokens].
  - now destruct (tokens st r).
  - destruct (step st c) as [s0 o0]. rewrite IH. destruct (tokens s0 s) as [s1 o1]. destruct (tokens s1 r) as [s2 o2]. now rewrite app_assoc.
Qed.
Lemma tokens_seq st s r s1 o1 s2 o2 : tokens st s = (s1, o1) -> tokens s1 r = (s2, o2) -> tokens st (s ++ r) = (s2, o1 ++ o2).
Proof. intros H1 H2. now rewrite tokens_app, H1, H2. Qed.
Lemma lower1_fix c s : to_lower (c :: s) = c :: s -> lower1 c = [c] /\ to_lower s = s.
Proof. unfold lower1. cbn [to_lower map]. intros [= H1 H2]. now rewrite H1. Qed.

Lemma name_rest r : to_lower r = r -> Forall (fun c => space c = false /\ is c (bs "/") = false /\ is c (bs ">") = false) r ->
  forall b n a, tokens (TagName (Tag b n a)) r = (TagName (Tag b (n ++ r) a), []).
Proof.
  intros Hl H. induction H as [|c r (H1 & H2 & H3) Hr IH]; intros b n a; cbn [tokens]; [now rewrite app_nil_r|].
  apply lower1_fix in Hl as [L1 L2]. cbn [step]. rewrite H1, H2, H3, L1. cbn [t_end t_name t_attrs]. rewrite (IH L2). now rewrite <- app_assoc.
Qed.
Lemma key_rest r : to_lower r = r -> Forall (fun c => space c = false /\ is c (bs "/") = false /\ is c (bs ">") = false /\ is c (bs "=") = false) r ->
  forall t n, tokens (AttrName t n) r = (AttrName t (n ++ r), []).
Proof.
  intros Hl H. induction H as [|c r (H1 & H2 & H3 & H4) Hr IH]; intros t n; cbn [tokens]; [now rewrite app_nil_r|].
  apply lower1_fix in Hl as [L1 L2]. cbn [step]. rewrite H1, H2, H3, H4, L1, (IH L2). now rewrite <- app_assoc.
Qed.
Lemma value_rest r : attr_value r -> forall t n v, tokens (ValueDouble t n v) r = (ValueDouble t n (v ++ r), []).
Proof.
  induction 1 as [|c r (H1 & H2) Hr IH]; intros t n v; cbn [tokens]; [now rewrite app_nil_r|].
  cbn [step]. rewrite H1, H2, IH. now rewrite <- app_assoc.
Qed.
Lemma text_rest r : plain_text r -> tokens Data r = (Data, map TChar r).
Proof. induction 1 as [|c r (H1 & H2) Hr IH]; cbn [tokens]; [reflexivity|]. cbn [step]. rewrite H1, H2, IH. reflexivity. Qed.

Lemma attrs_rest a : Forall (fun kv => attr_key (fst kv) /\ attr_value (snd kv)) a ->
  forall t, tokens (BeforeAttrName t) (write_attributes a) =
    (BeforeAttrName (Tag (t_end t) (t_name t) (t_attrs t ++ map (fun kv => ([x22] ++ fst kv ++ [x22], snd kv)) a)), []).
Proof.
  induction 1 as [|[k v] a ((Kl & Kc) & Hv) Ha IH]; intros t.
  - cbn [write_attributes flat_map tokens map]. rewrite app_nil_r. now destruct t.
  - unfold write_attributes. cbn [flat_map fst snd map]. fold (write_attributes a). cbn [fst snd] in *.
    assert (tokens (BeforeAttrName t) ([dquote] ++ k ++ bs """=" ++ [dquote] ++ v ++ bs """ ") = (BeforeAttrName (with_attr t ([x22] ++ k ++ [x22]) v), [])) as H1.
    { eapply (tokens_seq _ _ _ (AttrName t [x22]) [] _ []); [reflexivity|].
      eapply (tokens_seq _ _ _ _ [] _ []); [now apply key_rest|]. 
      eapply (tokens_seq _ _ _ (BeforeValue t (([x22] ++ k) ++ [x22])) [] _ []); [reflexivity|].
      eapply (tokens_seq _ _ _ (ValueDouble t (([x22] ++ k) ++ [x22]) []) [] _ []); [reflexivity|].
      eapply (tokens_seq _ _ _ _ [] _ []); [now apply value_rest|]. rewrite <- app_assoc. reflexivity. }
    eapply (tokens_seq _ _ _ _ [] _ []); [exact H1|]. rewrite IH. cbn [with_attr t_end t_name t_attrs]. now rewrite <- app_assoc.
Qed.

Theorem tokens_render e : plain e -> tokens Data (render e) = (Data, says_page (quoted e)).
Proof.
  induction e as [i n a l cs t k IH] using element_ind2. intros Hp. pose proof (every_root _ _ Hp) as (Hn & Ha & Ht). pose proof (every_children _ _ Hp) as Hc.
  cbn [el_name el_attrs el_text el_children] in *. destruct Hn as (Hl & c & r & -> & Hlet & Hr).
  pose proof (lower1_fix _ _ Hl) as [L1 L2].
  cbn [render quoted says_page el_text]. unfold write_opening_tag, write_closing_tag. cbn [el_name el_attrs].
  assert (tokens Data (bs "<" ++ (c :: r) ++ bs " " ++ write_attributes a ++ bs " " ++ bs ">") =
    (Data, [TStart (c :: r) (map (fun kv => ([x22] ++ fst kv ++ [x22], snd kv)) a) false])) as Hopen.
  { eapply (tokens_seq _ _ _ TagOpen [] _ _); [reflexivity|].
    eapply (tokens_seq _ _ _ (TagName (Tag false (c :: r) [])) [] _ _).
    { cbn [tokens step]. destruct (is c (bs "/")) eqn:E.
      { exfalso. cbn in E. apply byte_eqb_eq in E. subst c. discriminate. }
      rewrite Hlet, L1. now rewrite (name_rest r L2 Hr). }
    eapply (tokens_seq _ _ _ (BeforeAttrName (Tag false (c :: r) [])) [] _ _); [reflexivity|].
    eapply (tokens_seq _ _ _ _ [] _ _); [now apply attrs_rest|]. reflexivity. }
  assert (tokens Data (bs "</" ++ (c :: r) ++ bs ">") = (Data, [TEnd (c :: r)])) as Hclose.
  { eapply (tokens_seq _ _ _ EndTagOpen [] _ _); [reflexivity|].
    eapply (tokens_seq _ _ _ (TagName (Tag true (c :: r) [])) [] _ _); [|reflexivity].
    cbn [tokens step]. rewrite Hlet, L1. now rewrite (name_rest r L2 Hr). }
  eapply (tokens_seq _ _ _ _ [_] _ _); [exact Hopen|]. eapply (tokens_seq _ _ _ Data _ _ _).
  { destruct t as [t|]; [now apply text_rest|reflexivity]. }
  eapply (tokens_seq _ _ _ Data (flat_map says_page (map quoted cs)) _ _); [|exact Hclose].
  clear -IH Hc. induction IH as [|e cs He _ IHcs]; [reflexivity|]. inversion Hc; subst. cbn [flat_map map]. eapply tokens_seq; [now apply He|now apply IHcs].
Qed.

(** ** C64. Text and attribute values can introduce markup, and the key of an attribute is written in quotes, so
    that a page with an attribute is never read back as written. *)
Theorem C64_render_refuted :
  (exists e, tokenize (render e) <> Some (says_page e) /\ el_children e = [] /\
     exists ts, tokenize (render e) = Some ts /\ In (TStart (bs "script") [] false) ts /\ el_name e = bs "p") /\
  (forall e, plain e -> quoted e <> e -> tokenize (render e) <> Some (says_page e)).
Proof.
  split.
  - exists (Element 0 (bs "p") [] [] [] (Some (bs "<script>")) None). split; [vm_compute; discriminate|]. split; [reflexivity|].
    eexists. split; [vm_compute; reflexivity|]. split; [|reflexivity]. right. now left.
  - intros e Hp Hq. unfold tokenize. rewrite (tokens_render e Hp). intros [= H]. apply Hq. clear Hp Hq.
    assert (forall e es es2, says_page (quoted e) ++ es = says_page e ++ es2 -> quoted e = e /\ es = es2) as K.
    2: { apply (K e [] []). now rewrite !app_nil_r. }
    clear. induction e as [i n a l cs t k IH] using element_ind2. intros es es2 H. cbn [quoted says_page app] in H. injection H as Ha H.
    rewrite <- !app_assoc in H. apply app_inv_head in H.
    assert (forall (es es2 : list token), flat_map says_page (map quoted cs) ++ es = flat_map says_page cs ++ es2 -> map quoted cs = cs /\ es = es2) as K.
    { clear -IH. induction IH as [|e cs He _ IHcs]; intros es es2 H; [now split|]. cbn [map flat_map] in *. rewrite <- !app_assoc in H.
      apply He in H as [-> H]. apply IHcs in H as [-> H]. now split. }
    apply K in H as [H1 H2]. cbn [app] in H2. injection H2 as ->. cbn [quoted]. split; [f_equal; assumption|reflexivity].
Qed.
Print Assumptions C64_render_refuted.
(** A page whose strings need no escaping is read back, nested as it is, except for the quotes around keys. *)
Theorem C64_render_partial : forall e, plain e -> tokenize (render e) = Some (says_page (quoted e)).
Proof. intros e H. unfold tokenize. now rewrite tokens_render. Qed.
Print Assumptions C64_render_partial.
Example C64_example : let e := Element 0 (bs "div") [(bs "class", bs "a b")] [] [Element 1 (bs "p") [] [] [] (Some (bs "1 > 0")) None] None None in
  plain e /\ tokenize (render e) = Some ([TStart (bs "div") [(bs """class""", bs "a b")] false; TStart (bs "p") [] false] ++ map TChar (bs "1 > 0") ++ [TEnd (bs "p"); TEnd (bs "div")]).
Proof.
  cbv zeta. split; [|vm_compute; reflexivity].
  assert (forall s, forallb (fun c => negb (space c) && negb (is c (bs "/")) && negb (is c (bs ">"))) s = true -> to_lower s = s -> match s with c :: _ => letter c = true | [] => False end -> tag_name s) as T.
  { intros s Hs Hl Hc. split; [exact Hl|]. destruct s as [|c r]; [contradiction|]. exists c, r. split; [reflexivity|]. split; [exact Hc|]. cbn [forallb] in Hs. apply andb_true_iff in Hs as [_ Hs].
    rewrite forallb_forall in Hs. apply Forall_forall. intros x Hx. apply Hs in Hx. destruct (space x), (is x (bs "/")), (is x (bs ">")); try discriminate. auto. }
  repeat first [apply T; [vm_compute; reflexivity..|vm_compute; reflexivity] | split | constructor | reflexivity].
Qed.
