(** The HTML parser gives back what the serialiser wrote. *)
From Coq Require Import Lia.
From Verif Require Import Base HMap ClientModel InnerHtml.

Lemma byte_case (b c : byte) : b = c \/ byte_eqb b c = false.
Proof. destruct (byte_eqb b c) eqn:E; [left; now apply byte_eqb_eq|now right]. Qed.

Lemma unescape_cons b r : b <> x26 -> unescape (b :: r) = option_map (cons b) (unescape r).
Proof. intros H. cbn [unescape]. destruct (byte_eqb b x26) eqn:E; [apply byte_eqb_eq in E; congruence|reflexivity]. Qed.
Lemma unescape_escape attr s : unescape (escape attr s) = Some s.
Proof.
  assert (forall n s, length s <= n -> unescape (escape attr s) = Some s) as H; [|now apply (H (length s))].
  clear s. induction n as [|n IH]; intros s Hl; [destruct s; [reflexivity|cbn in Hl; lia]|].
  destruct s as [|b r]; [reflexivity|]. cbn [length] in Hl. assert (unescape (escape attr r) = Some r) as Hr by (apply IH; lia).
  cbn [escape]. destruct (byte_eqb b x26) eqn:E1.
  { apply byte_eqb_eq in E1 as ->. change (bs "&amp;" ++ escape attr r) with (x26 :: x61 :: x6d :: x70 :: x3b :: escape attr r).
    cbn [unescape]. rewrite Hr. reflexivity. }
  assert (b <> x26) as Hb by (intros ->; discriminate).
  assert (unescape (b :: escape attr r) = Some (b :: r)) as Hc by (rewrite unescape_cons, Hr by exact Hb; reflexivity).
  destruct (byte_eqb b xc2) eqn:E2.
  { apply byte_eqb_eq in E2 as ->. destruct r as [|c r']; [reflexivity|]. destruct (byte_eqb c xa0) eqn:E3; [|exact Hc].
    apply byte_eqb_eq in E3 as ->. change (bs "&nbsp;" ++ escape attr r') with (x26 :: x6e :: x62 :: x73 :: x70 :: x3b :: escape attr r').
    cbn [unescape]. rewrite IH by (cbn in Hl; lia). reflexivity. }
  destruct (attr && byte_eqb b x22) eqn:E3.
  { apply andb_true_iff in E3 as [_ E3]. apply byte_eqb_eq in E3 as ->.
    change (bs "&quot;" ++ escape attr r) with (x26 :: x71 :: x75 :: x6f :: x74 :: x3b :: escape attr r). cbn [unescape]. rewrite Hr. reflexivity. }
  destruct (negb attr && byte_eqb b x3c) eqn:E4.
  { apply andb_true_iff in E4 as [_ E4]. apply byte_eqb_eq in E4 as ->.
    change (bs "&lt;" ++ escape attr r) with (x26 :: x6c :: x74 :: x3b :: escape attr r). cbn [unescape]. rewrite Hr. reflexivity. }
  destruct (negb attr && byte_eqb b x3e) eqn:E5; [|exact Hc].
  apply andb_true_iff in E5 as [_ E5]. apply byte_eqb_eq in E5 as ->.
  change (bs "&gt;" ++ escape attr r) with (x26 :: x67 :: x74 :: x3b :: escape attr r). cbn [unescape]. rewrite Hr. reflexivity.
Qed.

(** Which bytes the escaped text has. *)
Lemma escape_bytes (attr : bool) (Q : byte -> Prop) : Forall Q (bs "&amp;&nbsp;&quot;&lt;&gt;") ->
  forall s, Forall (fun b => Q b \/ (if attr then b = x22 else b = x3c)) s -> Forall Q (escape attr s).
Proof.
  intros HQ. assert (forall n s, length s <= n -> Forall (fun b => Q b \/ (if attr then b = x22 else b = x3c)) s -> Forall Q (escape attr s)) as H; [|intros s; now apply (H (length s))].
  assert (forall x r : str, incl x (bs "&amp;&nbsp;&quot;&lt;&gt;") -> Forall Q r -> Forall Q (x ++ r)) as Hx.
  { intros x r Hi Hr. apply Forall_app. split; [|exact Hr]. rewrite Forall_forall in HQ |- *. auto. }
  assert (forall x : str, forallb (fun b => existsb (byte_eqb b) (bs "&amp;&nbsp;&quot;&lt;&gt;")) x = true -> incl x (bs "&amp;&nbsp;&quot;&lt;&gt;")) as Hi.
  { intros x Hf b Hb. rewrite forallb_forall in Hf. apply Hf in Hb. apply existsb_exists in Hb as (c & Hc & E). apply byte_eqb_eq in E. now subst. }
  induction n as [|n IH]; intros s Hl Hs; [destruct s; [constructor|cbn in Hl; lia]|].
  destruct s as [|b r]; [constructor|]. inversion Hs as [|? ? Hb Hr]; subst. cbn [length] in Hl. cbn [escape].
  assert (Forall Q (escape attr r)) as He by (apply IH; [lia|exact Hr]).
  destruct (byte_eqb b x26) eqn:E1; [apply Hx; [now apply Hi|exact He]|].
  destruct (byte_eqb b xc2) eqn:E2.
  { assert (Q b) as Qb. { destruct Hb as [Hb|Hb]; [exact Hb|]. apply byte_eqb_eq in E2. destruct attr; congruence. }
    destruct r as [|c r']; [now constructor|]. destruct (byte_eqb c xa0) eqn:E3; [|now constructor].
    apply Hx; [now apply Hi|]. apply IH; [cbn in Hl; lia|now inversion Hr]. }
  destruct attr; cbn [andb negb].
  - destruct (byte_eqb b x22) eqn:E3; [apply Hx; [now apply Hi|exact He]|]. constructor; [|exact He].
    destruct Hb as [Hb|Hb]; [exact Hb|]. subst b. discriminate.
  - destruct (byte_eqb b x3c) eqn:E3; [apply Hx; [now apply Hi|exact He]|].
    destruct (byte_eqb b x3e) eqn:E4; [apply Hx; [now apply Hi|exact He]|]. constructor; [|exact He].
    destruct Hb as [Hb|Hb]; [exact Hb|]. subst b. discriminate.
Qed.
Definition free (stop : list byte) (s : str) : Prop := Forall (fun b => existsb (byte_eqb b) stop = false) s.
Lemma all_or (P R : byte -> Prop) s : (forall b, P b \/ R b) -> Forall (fun b => P b \/ R b) s.
Proof. intros H. apply Forall_forall. auto. Qed.
Lemma existsb1 b c : existsb (byte_eqb b) [c] = false \/ b = c.
Proof. cbn. destruct (byte_case b c) as [H|H]; [now right|left; now rewrite H]. Qed.
Lemma escape_text_free s : free [x3c] (escape false s).
Proof. apply escape_bytes; [repeat constructor|]. apply all_or. intros b. apply existsb1. Qed.
Lemma escape_value_free s : free [x22] (escape true s).
Proof. apply escape_bytes; [repeat constructor|]. apply all_or. intros b. apply existsb1. Qed.
Definition okb (b : byte) : bool := negb (byte_eqb b x00 || byte_eqb b x0d).
Lemma plain_okb s : plain_chars s <-> Forall (fun b => okb b = true) s.
Proof.
  unfold plain_chars, okb. rewrite Forall_forall. split.
  - intros [A B] b Hb. apply negb_true_iff, orb_false_iff. split; apply byte_eqb_neq; intros ->; auto.
  - intros H. split; intros Hb; apply H in Hb; discriminate.
Qed.
Lemma escape_ok attr s : plain_chars s -> Forall (fun b => okb b = true) (escape attr s).
Proof.
  intros H. apply escape_bytes; [repeat constructor|]. apply plain_okb in H. eapply Forall_impl; [|exact H]. auto.
Qed.

Lemma upto_app stop x r : free stop x -> match r with [] => True | b :: _ => existsb (byte_eqb b) stop = true end -> upto stop (x ++ r) = (x, r).
Proof.
  intros Hx Hr. induction Hx as [|b x Hb _ IH]; cbn [app upto].
  - destruct r as [|b r]; [reflexivity|]. cbn [upto]. now rewrite Hr.
  - now rewrite Hb, IH.
Qed.

(** ** Tags *)
Definition all_tags : list str := flow_tags ++ block_tags ++ heading_tags ++ void_tags ++ [bs "li"; bs "a"; bs "button"; bs "form"].
Lemma among_in l t : among l t = true -> In t l.
Proof. intros H. apply existsb_exists in H as (x & Hx & E). apply str_eqb_eq in E. now subst. Qed.
Lemma kind_known t : kind_of t <> None -> In t all_tags.
Proof.
  unfold kind_of, all_tags. rewrite !in_app_iff. intros H.
  destruct (among flow_tags t) eqn:E1; [apply among_in in E1; auto|]. destruct (among block_tags t) eqn:E2; [apply among_in in E2; auto|].
  destruct (among heading_tags t) eqn:E3; [apply among_in in E3; auto|]. destruct (among void_tags t) eqn:E4; [apply among_in in E4; auto|].
  destruct (str_eqb t (bs "li")) eqn:E5; [apply str_eqb_eq in E5; subst; cbn; tauto|].
  destruct (str_eqb t (bs "a")) eqn:E6; [apply str_eqb_eq in E6; subst; cbn; tauto|].
  destruct (str_eqb t (bs "button")) eqn:E7; [apply str_eqb_eq in E7; subst; cbn; tauto|].
  destruct (str_eqb t (bs "form")) eqn:E8; [apply str_eqb_eq in E8; subst; cbn; tauto|]. congruence.
Qed.
Definition tag_check (t : str) : bool :=
  match t with [] => false | c :: _ => negb (byte_eqb c x2f) end && forallb (fun b => negb (existsb (byte_eqb b) [x20; x3e]) && okb b) t &&
  negb (among raw_tags t) && Bool.eqb (among empty_tags t) (among void_tags t) && negb (str_eqb t (bs "template")).
Lemma tags_checked : forallb tag_check all_tags = true.
Proof. vm_compute. reflexivity. Qed.
Record tag_facts (t : str) : Prop := TagFacts {
  tf_head : exists c r, t = c :: r /\ byte_eqb c x2f = false;
  tf_free : free [x20; x3e] t;
  tf_ok : Forall (fun b => okb b = true) t;
  tf_raw : among raw_tags t = false;
  tf_empty : among empty_tags t = among void_tags t;
  tf_template : str_eqb t (bs "template") = false }.
Lemma known_facts t : kind_of t <> None -> tag_facts t.
Proof.
  intros H. apply kind_known in H. pose proof tags_checked as C. rewrite forallb_forall in C. apply C in H. unfold tag_check in H.
  apply andb_true_iff in H as [H H5]. apply andb_true_iff in H as [H H4]. apply andb_true_iff in H as [H H3]. apply andb_true_iff in H as [H1 H2].
  rewrite forallb_forall in H2. constructor.
  - destruct t as [|c r]; [discriminate|]. exists c, r. split; [reflexivity|]. now apply negb_true_iff in H1.
  - apply Forall_forall. intros b Hb. apply H2, andb_true_iff in Hb as [Hb _]. now apply negb_true_iff in Hb.
  - apply Forall_forall. intros b Hb. apply H2, andb_true_iff in Hb as [_ Hb]. exact Hb.
  - now apply negb_true_iff in H3.
  - now apply Bool.eqb_prop in H4.
  - now apply negb_true_iff in H5.
Qed.
Lemma opens_facts f st t : opens f st t = true -> tag_facts t.
Proof. unfold opens. intros H. apply known_facts. destruct (kind_of t); [discriminate|discriminate]. Qed.

(** ** Attributes *)
Definition attr_fine (kv : str * str) : Prop := valid_name (fst kv) = true /\ to_lower (fst kv) = fst kv /\ plain_chars (snd kv).
Lemma name_free k : valid_name k = true -> free [x3d; x20; x3e; x2f; x22; x3c] k.
Proof.
  assert (forall b, name_char b = true -> existsb (byte_eqb b) [x3d; x20; x3e; x2f; x22; x3c] = false) as Hc.
  { intros b. assert (forallb (fun b => implb (name_char b) (negb (existsb (byte_eqb b) [x3d; x20; x3e; x2f; x22; x3c]))) all_bytes = true) as S by (vm_compute; reflexivity).
    intros H. pose proof (byte_sweep _ S b) as Hb. cbv beta in Hb. rewrite H in Hb. cbn [implb] in Hb. now apply negb_true_iff in Hb. }
  destruct k as [|b r]; [discriminate|]. cbn [valid_name]. intros H. apply andb_true_iff in H as [H1 H2]. rewrite forallb_forall in H2.
  constructor; [apply Hc; unfold name_char; now rewrite H1|]. apply Forall_forall. auto.
Qed.
Lemma name_ok k : valid_name k = true -> Forall (fun b => okb b = true) k.
Proof.
  assert (forall b, name_char b = true -> okb b = true) as Hc.
  { intros b. assert (forallb (fun b => implb (name_char b) (okb b)) all_bytes = true) as S by (vm_compute; reflexivity).
    intros H. pose proof (byte_sweep _ S b) as Hb. cbv beta in Hb. now rewrite H in Hb. }
  destruct k as [|b r]; [discriminate|]. cbn [valid_name]. intros H. apply andb_true_iff in H as [H1 H2]. rewrite forallb_forall in H2.
  constructor; [apply Hc; unfold name_char; now rewrite H1|]. apply Forall_forall. auto.
Qed.
Lemma lex_attrs_markup l : Forall attr_fine l -> forall fuel r, length (flat_map attr_markup l ++ x3e :: r) <= fuel ->
  lex_attrs fuel (flat_map attr_markup l ++ x3e :: r) = Some (l, r).
Proof.
  induction 1 as [|[k v] l Hk _ IH]; intros fuel r Hf.
  - destruct fuel as [|n]; [cbn in Hf; lia|]. reflexivity.
  - destruct Hk as (H1 & H2 & H3). cbn [fst snd] in *.
    cbn [flat_map] in *. unfold attr_markup at 1 in Hf. unfold attr_markup at 1. cbn [fst snd] in *.
    set (m := flat_map attr_markup l ++ x3e :: r) in *.
    assert ((x20 :: k ++ [x3d; x22] ++ escape true v ++ [x22]) ++ flat_map attr_markup l ++ x3e :: r = x20 :: k ++ x3d :: x22 :: escape true v ++ x22 :: m) as E.
    { cbn [app]. rewrite <- !app_assoc. cbn [app]. rewrite <- !app_assoc. reflexivity. }
    rewrite <- app_assoc in Hf |- *. rewrite E in Hf |- *. clear E. destruct fuel as [|n]; [cbn in Hf; lia|]. cbn [lex_attrs].
    change (byte_eqb x20 x3e) with false. change (byte_eqb x20 x20) with true. cbv iota.
    rewrite upto_app; [|now apply name_free|reflexivity]. rewrite H1, H2, str_eqb_refl. cbn [andb]. cbv iota.
    change (byte_eqb x3d x3d && byte_eqb x22 x22) with true. cbv iota.
    rewrite upto_app; [|apply escape_value_free|reflexivity]. rewrite unescape_escape. unfold m in Hf |- *. rewrite IH; [reflexivity|].
    cbn [length] in Hf. rewrite app_length in Hf. cbn [length] in Hf. rewrite app_length in Hf. cbn [length] in Hf. lia.
Qed.
Lemma attrs_ok l : Forall attr_fine l -> Forall (fun b => okb b = true) (flat_map attr_markup l).
Proof.
  induction 1 as [|[k v] l (H1 & H2 & H3) _ IH]; [constructor|]. cbn [flat_map fst snd] in *. apply Forall_app. split; [|exact IH].
  unfold attr_markup. cbn [fst snd]. constructor; [reflexivity|]. apply Forall_app. split; [now apply name_ok|].
  constructor; [reflexivity|]. constructor; [reflexivity|]. apply Forall_app. split; [now apply escape_ok|]. repeat constructor.
Qed.

(** ** The tokens of serialised nodes *)
Fixpoint node_toks (n : node) : list tok :=
  match n with
  | Text s => [Chars s]
  | Elem t a _ kids => Open t (entries a) :: if among void_tags t then [] else flat_map node_toks kids ++ [Close t]
  end.
Definition lexed (s : str) (ts : list tok) : Prop := forall fuel, length s < fuel -> lex fuel s = Some ts.
Definition tag_next (s : str) : Prop := match s with [] => True | b :: _ => b = x3c end.

Lemma lexed_nil : lexed [] [].
Proof. intros [|n] H; [cbn in H; lia|reflexivity]. Qed.
Lemma lexed_text s r ts : s <> [] -> tag_next r -> lexed r ts -> lexed (escape false s ++ r) (Chars s :: ts).
Proof.
  intros Hs Hr Hl fuel Hf. destruct fuel as [|n]; [lia|]. cbn [lex].
  assert (escape false s <> []) as He. { intros E. pose proof (unescape_escape false s) as U. rewrite E in U. cbn in U. congruence. }
  pose proof (escape_text_free s) as Hfree. destruct (escape false s) as [|b e] eqn:E; [congruence|]. clear He.
  assert (byte_eqb b x3c = false) as Hb. { inversion Hfree as [|? ? H1 _]; subst. cbn in H1. now rewrite orb_false_r in H1. }
  cbn [app]. rewrite Hb. change (b :: e ++ r) with ((b :: e) ++ r).
  rewrite upto_app; [|exact Hfree|destruct r as [|c r]; [exact I|cbn in Hr; subst c; reflexivity]].
  rewrite <- E, unescape_escape, Hl; [reflexivity|]. rewrite app_length in Hf. cbn [length] in Hf. lia.
Qed.
Lemma lexed_close t r ts : tag_facts t -> lexed r ts -> lexed ([x3c; x2f] ++ t ++ [x3e] ++ r) (Close t :: ts).
Proof.
  intros T Hl fuel Hf. destruct fuel as [|n]; [lia|]. cbn [app lex]. change (byte_eqb x3c x3c) with true. change (byte_eqb x2f x2f) with true. cbv iota.
  rewrite upto_app; [|eapply Forall_impl; [|exact (tf_free t T)]; intros b; cbn; intros H; apply orb_false_iff in H as [H1 H2]; apply orb_false_iff in H2 as [H2 _]; now rewrite H1, H2|reflexivity].
  change (byte_eqb x3e x3e) with true. cbv iota. rewrite Hl; [reflexivity|]. cbn [app length] in Hf. rewrite app_length in Hf. cbn [length] in Hf. lia.
Qed.
Lemma lexed_open t a r ts : tag_facts t -> Forall attr_fine a -> lexed r ts -> lexed (x3c :: t ++ flat_map attr_markup a ++ x3e :: r) (Open t a :: ts).
Proof.
  intros T Ha Hl fuel Hf. destruct fuel as [|n]; [lia|]. cbn [lex]. change (byte_eqb x3c x3c) with true. cbv iota.
  destruct (tf_head t T) as (c & t' & E & Hc). cbn [length] in Hf. rewrite !app_length in Hf. cbn [length] in Hf.
  rewrite E at 1. cbn [app]. rewrite Hc.
  rewrite upto_app; [|exact (tf_free t T)|].
  - rewrite lex_attrs_markup; [|exact Ha|rewrite app_length; cbn [length]; lia]. rewrite Hl; [reflexivity|lia].
  - destruct a as [|[k v] a]; reflexivity.
Qed.

Fixpoint node_size (n : node) : nat :=
  match n with Text _ => 1 | Elem _ _ _ kids => S (fold_right (fun c x => node_size c + x) 0 kids) end.
Definition nest_all (f : bool) (st : list str) (ns : list node) : Prop := Forall (nests f st) ns.
Lemma nests_elem f st t a l kids : nests f st (Elem t a l kids) <->
  opens f st t = true /\ Forall attr_fine (entries a) /\ spaced kids = true /\ (among void_tags t = true -> kids = []) /\ Forall (nests f (t :: st)) kids.
Proof.
  cbn [nests]. unfold attr_fine.
  assert ((fix all (ns : list node) : Prop := match ns with [] => True | c :: r => nests f (t :: st) c /\ all r end) kids <-> Forall (nests f (t :: st)) kids) as ->; [|tauto].
  induction kids as [|c kids IH]; [split; [constructor|constructor]|]. rewrite IH. split; [intros [H1 H2]; now constructor|]. intros H. inversion H; auto.
Qed.
Section NodeInd.
Context (P : node -> Prop) (HT : forall s, P (Text s)) (HE : forall t a l kids, Forall P kids -> P (Elem t a l kids)).
Fixpoint node_ind2 (n : node) : P n :=
  match n with
  | Text s => HT s
  | Elem t a l kids => HE t a l kids ((fix go ns : Forall P ns := match ns with [] => Forall_nil _ | c :: r => Forall_cons _ (node_ind2 c) (go r) end) kids)
  end.
End NodeInd.

(** The markup of nodes inside an element whose text is escaped. *)
Definition lexes_as (n : node) : Prop := forall f st parent, nests f st n -> among raw_tags parent = false ->
  forall r ts, match n with Text s => s <> [] /\ tag_next r | _ => True end -> lexed r ts -> lexed (node_markup parent n ++ r) (node_toks n ++ ts).
Lemma lexes_list ns : Forall lexes_as ns -> forall f st parent, Forall (nests f st) ns -> spaced ns = true -> among raw_tags parent = false ->
  forall r ts, tag_next r -> lexed r ts -> lexed (flat_map (node_markup parent) ns ++ r) (flat_map node_toks ns ++ ts).
Proof.
  induction 1 as [|n ns Hn _ IH]; intros f st parent Hs Hsp Hp r ts Hr Hl; [exact Hl|]. inversion Hs as [|? ? S1 S2]; subst.
  cbn [flat_map]. rewrite <- !app_assoc. apply (Hn f st parent); auto.
  - destruct n as [s|]; [|exact I]. cbn [spaced] in Hsp. destruct s as [|b s]; [discriminate|]. split; [discriminate|].
    destruct ns as [|[s'|t' a' l' k'] ns]; [exact Hr|discriminate|reflexivity].
  - apply (IH f st parent); auto. destruct n as [s|]; [|exact Hsp]. cbn [spaced] in Hsp. destruct s as [|b s]; [discriminate|].
    destruct ns as [|[s'|t' a' l' k'] ns]; [reflexivity|discriminate|exact Hsp].
Qed.
Lemma lexes n : lexes_as n.
Proof.
  induction n as [s|t a l kids IH] using node_ind2; intros f st parent Hn Hp r ts Hr Hl.
  - cbn [node_markup node_toks app]. rewrite Hp. destruct Hr. now apply lexed_text.
  - apply nests_elem in Hn as (H1 & H2 & H3 & H4 & H5). pose proof (opens_facts _ _ _ H1) as T.
    cbn [node_markup node_toks]. rewrite (tf_empty t T), (tf_template t T). destruct (among void_tags t) eqn:Ev.
    + cbn [app]. rewrite <- !app_assoc. cbn [app]. now apply lexed_open.
    + assert ((x3c :: t ++ flat_map attr_markup (entries a) ++ x3e :: flat_map (node_markup t) kids ++ [x3c; x2f] ++ t ++ [x3e]) ++ r =
        x3c :: t ++ flat_map attr_markup (entries a) ++ x3e :: flat_map (node_markup t) kids ++ [x3c; x2f] ++ t ++ [x3e] ++ r) as ->.
      { cbn [app]. rewrite <- !app_assoc. cbn [app]. rewrite <- !app_assoc. cbn [app]. rewrite <- !app_assoc. reflexivity. }
      cbn [app]. apply lexed_open; auto. rewrite <- app_assoc. cbn [app]. apply (lexes_list kids IH f (t :: st) t H5 H3 (tf_raw t T)); [reflexivity|].
      now apply (lexed_close t r ts T).
Qed.

(** ** The tree *)
Definition builds_as (n : node) : Prop := forall f st r cur, nests f (map (fun x => fst (fst x)) st) n ->
  build f (node_toks n ++ r) st cur = build f r st (cur ++ [copy n]).
Lemma builds_list ns : Forall builds_as ns -> forall f st r cur, Forall (nests f (map (fun x => fst (fst x)) st)) ns ->
  build f (flat_map node_toks ns ++ r) st cur = build f r st (cur ++ map copy ns).
Proof.
  induction 1 as [|n ns Hn _ IH]; intros f st r cur H; [now rewrite app_nil_r|]. inversion H; subst. cbn [flat_map map].
  rewrite <- app_assoc, Hn, IH by assumption. now rewrite <- app_assoc.
Qed.
Lemma entries_nodup {V} (m : hmap V) : NoDup (map fst (entries m)).
Proof.
  induction m as [|[k v] m IH]; [constructor|]. cbn [entries map fst]. constructor.
  - intros H. apply in_map_iff in H as ([k' v'] & E & H). apply filter_In in H as [_ H]. cbn [fst] in *. subst k'. now rewrite str_eqb_refl in H.
  - assert (forall (l : list (str * V)) p, NoDup (map fst l) -> NoDup (map fst (filter p l))) as Hf.
    { clear. induction l as [|x l IH]; intros p H; [constructor|]. inversion H as [|? ? H1 H2]; subst. cbn [filter]. destruct (p x); [|auto].
      cbn [map]. constructor; [|auto]. intros Hin. apply H1. apply in_map_iff in Hin as (y & E & Hy). apply filter_In in Hy as [Hy _]. rewrite <- E. now apply in_map. }
    now apply Hf.
Qed.
Lemma entries_same {V} (m : list (str * V)) : NoDup (map fst m) -> entries m = m.
Proof.
  induction m as [|[k v] m IH]; intros H; [reflexivity|]. cbn [map fst] in H. inversion H as [|? ? H1 H2]; subst. cbn [entries]. rewrite IH by exact H2. f_equal.
  clear IH H H2. induction m as [|[k' v'] m IH]; [reflexivity|]. cbn [filter fst map] in *.
  destruct (str_eqb k k') eqn:E; [apply str_eqb_eq in E; subst; exfalso; apply H1; now left|]. cbn [negb]. f_equal. apply IH. intros Hin. apply H1. now right.
Qed.
Lemma entries_twice {V} (m : hmap V) : entries (entries m) = entries m.
Proof. apply entries_same, entries_nodup. Qed.
Lemma get_filter {V} q k (m : hmap V) : q <> k -> get q (filter (fun kv => negb (str_eqb k (fst kv))) m) = get q m.
Proof.
  intros H. induction m as [|[k' v'] m IH]; [reflexivity|]. cbn [filter fst]. destruct (str_eqb k k') eqn:E; cbn [negb get].
  - apply str_eqb_eq in E. subst k'. destruct (str_eqb q k) eqn:E2; [apply str_eqb_eq in E2; congruence|exact IH].
  - now rewrite IH.
Qed.
Lemma get_entries {V} q (m : hmap V) : get q (entries m) = get q m.
Proof.
  induction m as [|[k v] m IH]; [reflexivity|]. cbn [entries get]. destruct (str_eqb q k) eqn:E; [reflexivity|].
  rewrite get_filter; [exact IH|]. intros ->. now rewrite str_eqb_refl in E.
Qed.
Lemma in_entries {V} k v (m : hmap V) : In (k, v) (entries m) -> get k m = Some v.
Proof.
  intros H. rewrite <- get_entries. pose proof (entries_nodup m) as N. revert H N. generalize (entries m). intros l.
  induction l as [|[k' v'] l IH]; intros H N; [destruct H|]. cbn [map fst] in N. inversion N as [|? ? N1 N2]; subst. cbn [get].
  destruct H as [[= -> ->]|H]; [now rewrite str_eqb_refl|]. destruct (str_eqb k k') eqn:E; [|auto].
  apply str_eqb_eq in E. subst k'. exfalso. apply N1. change k with (fst (k, v)). now apply in_map.
Qed.

Lemma builds n : builds_as n.
Proof.
  induction n as [s|t a l kids IH] using node_ind2; intros f st r cur Hn; [reflexivity|].
  apply nests_elem in Hn as (H1 & H2 & H3 & H4 & H5). cbn [node_toks copy app build]. rewrite H1. destruct (among void_tags t) eqn:Ev.
  - rewrite (H4 eq_refl). cbn [app map]. now rewrite entries_twice.
  - rewrite <- app_assoc, (builds_list kids IH); [|exact H5]. cbn [app build]. rewrite str_eqb_refl. now rewrite entries_twice.
Qed.

(** ** The way there and back *)
Lemma markup_ok n : forall f st parent, nests f st n -> among raw_tags parent = false -> Forall (fun b => okb b = true) (node_markup parent n).
Proof.
  induction n as [s|t a l kids IH] using node_ind2; intros f st parent Hn Hp.
  - cbn [node_markup nests] in *. rewrite Hp. now apply escape_ok.
  - apply nests_elem in Hn as (H1 & H2 & H3 & H4 & H5). pose proof (opens_facts _ _ _ H1) as T.
    cbn [node_markup]. constructor; [reflexivity|]. apply Forall_app. split; [apply (tf_ok t T)|]. apply Forall_app. split; [now apply attrs_ok|].
    constructor; [reflexivity|]. destruct (among empty_tags t); [constructor|]. rewrite (tf_template t T). apply Forall_app. split.
    + clear H2 H3 H4. induction IH as [|c kids Hc _ IHk]; [constructor|]. inversion H5; subst. cbn [flat_map]. apply Forall_app. split; [|auto].
      eapply Hc; [eassumption|apply (tf_raw t T)].
    + constructor; [reflexivity|]. constructor; [reflexivity|]. apply Forall_app. split; [apply (tf_ok t T)|]. repeat constructor.
Qed.
Theorem html_copy old new ns : kind_of old <> None -> among void_tags old = false -> kind_of new <> None ->
  spaced ns = true -> Forall (nests (str_eqb new (bs "form")) []) ns -> html_parse new (inner_html old ns) = Some (map copy ns).
Proof.
  intros Ho Hv Hn Hs Hk. pose proof (known_facts old Ho) as T. unfold inner_html. rewrite (tf_empty old T), (tf_template old T), Hv. cbn [orb].
  unfold html_parse. destruct (str_eqb new (bs "html")) eqn:E.
  { apply str_eqb_eq in E. subst new. exfalso. apply Hn. reflexivity. }
  set (m := flat_map (node_markup old) ns).
  assert (lexed m (flat_map node_toks ns)) as L.
  { pose proof (lexes_list ns) as L. rewrite <- (app_nil_r m), <- (app_nil_r (flat_map node_toks ns)). unfold m.
    apply (L (proj2 (Forall_forall _ _) (fun n _ => lexes n)) _ _ old Hk Hs (tf_raw old T)); [exact I|exact lexed_nil]. }
  assert (existsb (fun b => byte_eqb b x00 || byte_eqb b x0d) m = false) as B.
  { assert (Forall (fun b => okb b = true) m) as F.
    { unfold m. clear -Hk T. induction Hk as [|n ns Hn _ IH]; [constructor|]. cbn [flat_map]. apply Forall_app. split; [|exact IH].
      eapply markup_ok; [exact Hn|apply (tf_raw old T)]. }
    clear -F. induction F as [|b m Hb _ IH]; [reflexivity|]. cbn [existsb]. unfold okb in Hb. apply negb_true_iff in Hb. now rewrite Hb. }
  destruct m as [|b m'] eqn:Em.
  - (* nothing serialised: there are no nodes *)
    destruct ns as [|[s|t a l k] ns]; [reflexivity| |discriminate]. exfalso. cbn [flat_map node_markup] in Em. unfold m in Em. clear L B.
    cbn [flat_map node_markup] in Em. rewrite (tf_raw old T) in Em. apply app_eq_nil in Em as [Em _].
    pose proof (unescape_escape false s) as U. rewrite Em in U. cbn in U. injection U as <-. cbn [spaced] in Hs. discriminate.
  - rewrite B. destruct (kind_of new) eqn:Ek; [|congruence]. rewrite (L (S (length (b :: m')))) by lia.
    rewrite <- (app_nil_r (flat_map node_toks ns)), (builds_list ns); [reflexivity| |exact Hk]. apply Forall_forall. intros n _. apply builds.
Qed.

(** ** Where elements come from *)
Lemma made_elem T K t a l kids : made_of T K (Elem t a l kids) <-> T t /\ Forall (fun kv => K (fst kv)) a /\ Forall (made_of T K) kids.
Proof.
  cbn [made_of].
  assert ((fix all (ns : list node) : Prop := match ns with [] => True | c :: r => made_of T K c /\ all r end) kids <-> Forall (made_of T K) kids) as ->; [|tauto].
  induction kids as [|c kids IH]; [split; constructor|]. rewrite IH. split; [intros [H1 H2]; now constructor|]. intros H. inversion H; auto.
Qed.
Lemma entries_incl {V} (m : hmap V) : incl (entries m) m.
Proof.
  induction m as [|[k v] m IH]; intros x Hx; [destruct Hx|]. cbn [entries] in Hx. destruct Hx as [<-|Hx]; [now left|]. apply filter_In in Hx as [Hx _]. right. auto.
Qed.
Lemma entries_all {V} (P : str * V -> Prop) m : Forall P m -> Forall P (entries m).
Proof. rewrite !Forall_forall. intros H x Hx. apply H. now apply entries_incl. Qed.
Lemma build_made T K f ts : Forall (tok_made_of T K) ts -> forall st cur r,
  Forall (fun x => T (fst (fst x)) /\ Forall (fun kv => K (fst kv)) (snd (fst x)) /\ Forall (made_of T K) (snd x)) st -> Forall (made_of T K) cur ->
  build f ts st cur = Some r -> Forall (made_of T K) r.
Proof.
  induction 1 as [|k ts Hk _ IH]; intros st cur r Hst Hc; cbn [build].
  - destruct st; [now intros [= <-]|discriminate].
  - destruct k as [t a|t|s].
    + destruct Hk as (_ & Ht & Ha). destruct (opens _ _ _); [|discriminate]. destruct (among void_tags t).
      * apply IH; [exact Hst|]. apply Forall_app. split; [exact Hc|]. constructor; [|constructor]. apply made_elem. split; [exact Ht|]. split; [now apply entries_all|constructor].
      * apply IH; [|constructor]. constructor; [|exact Hst]. cbn [fst snd]. auto.
    + destruct st as [|[[t' a] before] st]; [discriminate|]. inversion Hst as [|? ? (H1 & H2 & H3) H4]; subst. cbn [fst snd] in *.
      destruct (str_eqb t t') eqn:E; [|discriminate]. apply str_eqb_eq in E. subst t'. apply IH; [exact H4|]. apply Forall_app. split; [exact H3|].
      constructor; [|constructor]. apply made_elem. split; [exact H1|]. split; [now apply entries_all|exact Hc].
    + apply IH; [exact Hst|]. apply Forall_app. split; [exact Hc|]. repeat constructor.
Qed.
(** A browser that is both. *)
Definition careful_browser (old new : str) (ns : list node) : list node :=
  match html_parse new (inner_html old ns) with Some r => r | None => [] end.
Lemma careful_standard : standard careful_browser.
Proof. intros old new ns r H. unfold careful_browser. now rewrite H. Qed.
Lemma careful_frugal : frugal careful_browser.
Proof.
  intros T K old new ns ts Hn Hp Hl Ht. unfold careful_browser. destruct (html_parse new (inner_html old ns)) as [r|] eqn:E; [|constructor].
  unfold html_parse in E. destruct (str_eqb new (bs "html")); [discriminate|]. destruct (inner_html old ns) as [|b m]; [injection E as <-; constructor|].
  destruct (existsb _ _); [discriminate|]. destruct (kind_of new); [|discriminate]. rewrite Hl in E. eapply build_made; [exact Ht| | |exact E]; constructor.
Qed.

(** Escaped text is text wherever it stands, and every ordinary document can be tokenized. *)
Lemma unescape_app attr s m : unescape (escape attr s ++ m) = option_map (app s) (unescape m).
Proof.
  assert (forall n s, length s <= n -> unescape (escape attr s ++ m) = option_map (app s) (unescape m)) as H; [|now apply (H (length s))].
  assert (forall (f g : str -> str) (o : option str), option_map f (option_map g o) = option_map (fun x => f (g x)) o) as OM by (now intros f g [|]).
  clear s. induction n as [|n IH]; intros s Hl; [destruct s; [cbn; now destruct (unescape m)|cbn in Hl; lia]|].
  destruct s as [|b r]; [cbn; now destruct (unescape m)|]. cbn [length] in Hl.
  assert (unescape (escape attr r ++ m) = option_map (app r) (unescape m)) as Hr by (apply IH; lia).
  cbn [escape]. destruct (byte_eqb b x26) eqn:E1.
  { apply byte_eqb_eq in E1 as ->. transitivity (option_map (cons x26) (unescape (escape attr r ++ m))); [reflexivity|]. rewrite Hr, OM. reflexivity. }
  assert (b <> x26) as Hb by (intros ->; discriminate).
  assert (unescape ((b :: escape attr r) ++ m) = option_map (app (b :: r)) (unescape m)) as Hc.
  { cbn [app]. rewrite unescape_cons, Hr, OM by exact Hb. reflexivity. }
  destruct (byte_eqb b xc2) eqn:E2.
  { apply byte_eqb_eq in E2 as ->. destruct r as [|c r']; [exact Hc|]. destruct (byte_eqb c xa0) eqn:E3; [|exact Hc].
    apply byte_eqb_eq in E3 as ->. transitivity (option_map (fun x => xc2 :: xa0 :: x) (unescape (escape attr r' ++ m))); [reflexivity|].
    rewrite IH by (cbn in Hl; lia). rewrite OM. reflexivity. }
  destruct (attr && byte_eqb b x22) eqn:E3.
  { apply andb_true_iff in E3 as [_ E3]. apply byte_eqb_eq in E3 as ->.
    transitivity (option_map (cons x22) (unescape (escape attr r ++ m))); [reflexivity|]. rewrite Hr, OM. reflexivity. }
  destruct (negb attr && byte_eqb b x3c) eqn:E4.
  { apply andb_true_iff in E4 as [_ E4]. apply byte_eqb_eq in E4 as ->.
    transitivity (option_map (cons x3c) (unescape (escape attr r ++ m))); [reflexivity|]. rewrite Hr, OM. reflexivity. }
  destruct (negb attr && byte_eqb b x3e) eqn:E5; [|exact Hc].
  apply andb_true_iff in E5 as [_ E5]. apply byte_eqb_eq in E5 as ->.
  transitivity (option_map (cons x3e) (unescape (escape attr r ++ m))); [reflexivity|]. rewrite Hr, OM. reflexivity.
Qed.

(** Text without markup in front of something that can be tokenized. *)
Definition readable (T K : str -> Prop) (s : str) : Prop :=
  exists m u r ts, s = m ++ r /\ free [x3c] m /\ unescape m = Some u /\ tag_next r /\ lexed r ts /\ Forall (tok_made_of T K) ts.
Lemma readable_lexed T K s : readable T K s -> exists ts, lexed s ts /\ Forall (tok_made_of T K) ts.
Proof.
  intros (m & u & r & ts & -> & Hf & Hu & Hr & Hl & Ht). destruct m as [|b m]; [exists ts; auto|]. exists (Chars u :: ts). split; [|now constructor].
  intros fuel Hfu. destruct fuel as [|n]; [lia|]. cbn [app lex].
  assert (byte_eqb b x3c = false) as ->. { inversion Hf as [|? ? H1 _]; subst. cbn in H1. now rewrite orb_false_r in H1. }
  change (b :: m ++ r) with ((b :: m) ++ r). rewrite upto_app; [|exact Hf|destruct r as [|c r]; [exact I|cbn in Hr; subst c; reflexivity]].
  rewrite Hu, Hl; [reflexivity|]. cbn [app length] in Hfu. rewrite app_length in Hfu. lia.
Qed.
Lemma readable_start T K s ts : tag_next s -> lexed s ts -> Forall (tok_made_of T K) ts -> readable T K s.
Proof. intros H1 H2 H3. exists [], [], s, ts. repeat split; auto. constructor. Qed.
Lemma readable_text T K s r : readable T K r -> readable T K (escape false s ++ r).
Proof.
  intros (m & u & r' & ts & -> & Hf & Hu & Hr & Hl & Ht). exists (escape false s ++ m), (s ++ u), r', ts. split; [now rewrite app_assoc|].
  split; [apply Forall_app; split; [apply escape_text_free|exact Hf]|]. split; [rewrite unescape_app, Hu; reflexivity|auto].
Qed.
(** Attribute values may contain anything. *)
Definition name_fine (k : str) : Prop := valid_name k = true /\ to_lower k = k.
Lemma lex_attrs_any l : Forall (fun kv : str * str => name_fine (fst kv)) l -> forall fuel r, length (flat_map attr_markup l ++ x3e :: r) <= fuel ->
  lex_attrs fuel (flat_map attr_markup l ++ x3e :: r) = Some (l, r).
Proof.
  induction 1 as [|[k v] l [H1 H2] _ IH]; intros fuel r Hf.
  - destruct fuel as [|n]; [cbn in Hf; lia|]. reflexivity.
  - cbn [fst snd] in *. cbn [flat_map] in *. unfold attr_markup at 1 in Hf. unfold attr_markup at 1. cbn [fst snd] in *.
    set (m := flat_map attr_markup l ++ x3e :: r) in *.
    assert ((x20 :: k ++ [x3d; x22] ++ escape true v ++ [x22]) ++ flat_map attr_markup l ++ x3e :: r = x20 :: k ++ x3d :: x22 :: escape true v ++ x22 :: m) as E.
    { cbn [app]. rewrite <- !app_assoc. cbn [app]. rewrite <- !app_assoc. reflexivity. }
    rewrite <- app_assoc in Hf |- *. rewrite E in Hf |- *. clear E. destruct fuel as [|n]; [cbn in Hf; lia|]. cbn [lex_attrs].
    change (byte_eqb x20 x3e) with false. change (byte_eqb x20 x20) with true. cbv iota.
    rewrite upto_app; [|now apply name_free|reflexivity]. rewrite H1, H2, str_eqb_refl. cbn [andb]. cbv iota.
    change (byte_eqb x3d x3d && byte_eqb x22 x22) with true. cbv iota.
    rewrite upto_app; [|apply escape_value_free|reflexivity]. rewrite unescape_escape. unfold m in Hf |- *. rewrite IH; [reflexivity|].
    cbn [length] in Hf. rewrite app_length in Hf. cbn [length] in Hf. rewrite app_length in Hf. cbn [length] in Hf. lia.
Qed.
Lemma lexed_open_any t a r ts : tag_facts t -> Forall (fun kv : str * str => name_fine (fst kv)) a -> lexed r ts ->
  lexed (x3c :: t ++ flat_map attr_markup a ++ x3e :: r) (Open t a :: ts).
Proof.
  intros T Ha Hl fuel Hf. destruct fuel as [|n]; [lia|]. cbn [lex]. change (byte_eqb x3c x3c) with true. cbv iota.
  destruct (tf_head t T) as (c & t' & E & Hc). cbn [length] in Hf. rewrite !app_length in Hf. cbn [length] in Hf.
  rewrite E at 1. cbn [app]. rewrite Hc.
  rewrite upto_app; [|exact (tf_free t T)|].
  - rewrite lex_attrs_any; [|exact Ha|rewrite app_length; cbn [length]; lia]. rewrite Hl; [reflexivity|lia].
  - destruct a as [|[k v] a]; reflexivity.
Qed.
Definition ordinary (T K : str -> Prop) : Prop := (forall t, T t -> kind_of t <> None) /\ (forall k, K k -> name_fine k).
Lemma read_list (T K : str -> Prop) parent ns :
  Forall (fun n => made_of T K n -> forall r, readable T K r -> readable T K (node_markup parent n ++ r)) ns ->
  Forall (made_of T K) ns -> forall r, readable T K r -> readable T K (flat_map (node_markup parent) ns ++ r).
Proof.
  induction 1 as [|n ns Hn _ IH]; intros Hm r Hr; [exact Hr|]. inversion Hm; subst. cbn [flat_map]. rewrite <- app_assoc. auto.
Qed.
Lemma read_node T K n : ordinary T K -> made_of T K n -> forall parent, among raw_tags parent = false -> forall r, readable T K r -> readable T K (node_markup parent n ++ r).
Proof.
  intros [OT OK]. induction n as [s|t a l kids IH] using node_ind2; intros Hm parent Hp r Hr.
  - cbn [node_markup]. rewrite Hp. now apply readable_text.
  - apply made_elem in Hm as (M1 & M2 & M3). pose proof (known_facts t (OT t M1)) as F. cbn [node_markup]. rewrite (tf_empty t F), (tf_template t F).
    assert (Forall (fun kv : str * str => name_fine (fst kv)) (entries a)) as Ha.
    { apply entries_all. eapply Forall_impl; [|exact M2]. intros kv. apply OK. }
    assert (forall ts, Forall (tok_made_of T K) ts -> Forall (tok_made_of T K) (Open t (entries a) :: ts)) as HO.
    { intros ts Hts. constructor; [|exact Hts]. split; [now apply OT|]. split; [exact M1|]. now apply entries_all. }
    destruct (among void_tags t) eqn:Ev.
    + destruct (readable_lexed _ _ _ Hr) as (ts & Hl & Ht). apply readable_start with (ts := Open t (entries a) :: ts); [reflexivity| |now apply HO].
      cbn [app]. rewrite <- !app_assoc. cbn [app]. now apply lexed_open_any.
    + assert ((x3c :: t ++ flat_map attr_markup (entries a) ++ x3e :: flat_map (node_markup t) kids ++ [x3c; x2f] ++ t ++ [x3e]) ++ r =
        x3c :: t ++ flat_map attr_markup (entries a) ++ x3e :: flat_map (node_markup t) kids ++ [x3c; x2f] ++ t ++ [x3e] ++ r) as ->.
      { cbn [app]. rewrite <- !app_assoc. cbn [app]. rewrite <- !app_assoc. cbn [app]. rewrite <- !app_assoc. reflexivity. }
      assert (readable T K (flat_map (node_markup t) kids ++ [x3c; x2f] ++ t ++ [x3e] ++ r)) as Hk.
      { apply read_list; [|exact M3|].
        - eapply Forall_impl; [|exact IH]. intros n Hn Hn' r' Hr'. apply Hn; auto. apply (tf_raw t F).
        - destruct (readable_lexed _ _ _ Hr) as (ts & Hl & Ht). apply readable_start with (ts := Close t :: ts); [reflexivity|now apply lexed_close|].
          constructor; [|exact Ht]. split; [now apply OT|exact Ev]. }
      destruct (readable_lexed _ _ _ Hk) as (ts & Hl & Ht). apply readable_start with (ts := Open t (entries a) :: ts); [reflexivity| |now apply HO].
      now apply lexed_open_any.
Qed.
(** What a frugal browser makes of an ordinary document. *)
Theorem frugal_made reparse T K old new ns : frugal reparse -> ordinary T K -> T (bs "p") -> kind_of old <> None -> kind_of new <> None ->
  Forall (made_of T K) ns -> Forall (made_of T K) (reparse old new ns).
Proof.
  intros Hf HO Hp Ho Hn Hm. pose proof (known_facts old Ho) as F.
  assert (exists ts, lexed (inner_html old ns) ts /\ Forall (tok_made_of T K) ts) as (ts & Hl & Ht).
  { unfold inner_html. destruct (_ || _); [exists []; split; [exact lexed_nil|constructor]|]. apply readable_lexed.
    rewrite <- (app_nil_r (flat_map _ ns)). apply read_list; [|exact Hm|].
    - apply Forall_forall. intros n _ Hn' r Hr. apply read_node; auto. apply (tf_raw old F).
    - apply readable_start with (ts := []); [exact I|exact lexed_nil|constructor]. }
  apply (Hf T K old new ns ts Hn Hp); [|exact Ht]. apply Hl. lia.
Qed.
