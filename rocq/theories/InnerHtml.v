(** What [new_tag.innerHTML = old_tag.innerHTML] (puck_liveview/client/index.js:28) does, after the HTML Standard:
    serialising HTML fragments (section 13.3) and parsing them again (13.2.5 tokenization, 13.2.6.4.7 "in body",
    13.4 fragments). The serialiser is complete; the parser answers only for markup in the form the serialiser
    writes, made of the elements listed below and nested so that no rule of the Standard moves or closes anything
    by itself ([None]: no answer). Not code of /repo: the browser's part of index.js:28. *)
From Verif Require Import Base HMap ClientModel.

(** ** Serialising *)

(** Elements whose text is written unescaped (scripting being on), elements written without content and end tag, and
    [template], whose children are not its contents. *)
Definition raw_tags : list str :=
  [bs "style"; bs "script"; bs "xmp"; bs "iframe"; bs "noembed"; bs "noframes"; bs "plaintext"; bs "noscript"].
Definition empty_tags : list str :=
  [bs "area"; bs "base"; bs "br"; bs "col"; bs "embed"; bs "hr"; bs "img"; bs "input"; bs "link"; bs "meta"; bs "source"; bs "track";
   bs "wbr"; bs "basefont"; bs "bgsound"; bs "frame"; bs "keygen"; bs "param"].
Definition among (l : list str) (t : str) : bool := existsb (str_eqb t) l.

(** "Escaping a string", in attribute values or in text. *)
Fixpoint escape (attr : bool) (s : str) : str :=
  match s with
  | [] => []
  | b :: r =>
      if byte_eqb b x26 then bs "&amp;" ++ escape attr r
      else if byte_eqb b xc2 then
        match r with
        | c :: r' => if byte_eqb c xa0 then bs "&nbsp;" ++ escape attr r' else b :: escape attr r
        | [] => [b]
        end
      else if attr && byte_eqb b x22 then bs "&quot;" ++ escape attr r
      else if negb attr && byte_eqb b x3c then bs "&lt;" ++ escape attr r
      else if negb attr && byte_eqb b x3e then bs "&gt;" ++ escape attr r
      else b :: escape attr r
  end.
(** The attributes of an element, each once (a hash map is a list in which the first entry of a name counts). *)
Fixpoint entries {V} (m : hmap V) : list (str * V) :=
  match m with
  | [] => []
  | (k, v) :: r => (k, v) :: filter (fun kv => negb (str_eqb k (fst kv))) (entries r)
  end.
Definition attr_markup (kv : str * str) : str := x20 :: fst kv ++ [x3d; x22] ++ escape true (snd kv) ++ [x22].
(** A child of an element with the tag [parent]. *)
Fixpoint node_markup (parent : str) (n : node) : str :=
  match n with
  | Text s => if among raw_tags parent then s else escape false s
  | Elem t a _ kids =>
      x3c :: t ++ flat_map attr_markup (entries a) ++ x3e ::
      (if among empty_tags t then []
       else (if str_eqb t (bs "template") then [] else flat_map (node_markup t) kids) ++ [x3c; x2f] ++ t ++ [x3e])
  end.
(** [old_tag.innerHTML]. *)
Definition inner_html (old : str) (ns : list node) : str :=
  if among empty_tags old || str_eqb old (bs "template") then [] else flat_map (node_markup old) ns.

(** ** Parsing *)

Inductive kind := Flow | Block | Heading | Item | Anchor | Button | Form | Void.
Definition flow_tags : list str :=
  [bs "span"; bs "label"; bs "abbr"; bs "bdi"; bs "bdo"; bs "cite"; bs "data"; bs "dfn"; bs "kbd"; bs "mark"; bs "output"; bs "q"; bs "samp";
   bs "sub"; bs "sup"; bs "time"; bs "var"; bs "b"; bs "code"; bs "em"; bs "i"; bs "s"; bs "small"; bs "strong"; bs "u"].
Definition block_tags : list str :=
  [bs "p"; bs "address"; bs "article"; bs "aside"; bs "blockquote"; bs "details"; bs "dialog"; bs "div"; bs "dl"; bs "fieldset";
   bs "figcaption"; bs "figure"; bs "footer"; bs "header"; bs "hgroup"; bs "main"; bs "nav"; bs "ol"; bs "section"; bs "summary"; bs "ul"].
Definition heading_tags : list str := [bs "h1"; bs "h2"; bs "h3"; bs "h4"; bs "h5"; bs "h6"].
Definition void_tags : list str := [bs "br"; bs "img"; bs "input"; bs "wbr"].
Definition kind_of (t : str) : option kind :=
  if among flow_tags t then Some Flow else if among block_tags t then Some Block
  else if among heading_tags t then Some Heading else if among void_tags t then Some Void
  else if str_eqb t (bs "li") then Some Item else if str_eqb t (bs "a") then Some Anchor
  else if str_eqb t (bs "button") then Some Button else if str_eqb t (bs "form") then Some Form else None.

(** "In body", a start tag [t] when the elements [st] (innermost first) are open and the form element pointer is set if
    [f]: nothing has to be closed before the element is inserted. *)
Definition opens (f : bool) (st : list str) (t : str) : bool :=
  let no_p := negb (among st (bs "p")) in
  match kind_of t with
  | Some Flow | Some Void => true
  | Some Block => no_p
  | Some Heading => no_p && match st with c :: _ => negb (among heading_tags c) | [] => true end
  | Some Item => no_p && match st with c :: _ => among [bs "ul"; bs "ol"] c | [] => true end
  | Some Anchor => negb (among st (bs "a"))
  | Some Button => negb (among st (bs "button"))
  | Some Form => no_p && negb f && negb (among st (bs "form"))
  | None => false
  end.

(** Character references, those the serialiser writes. *)
Fixpoint unescape (s : str) : option str :=
  match s with
  | [] => Some []
  | b :: r =>
      if byte_eqb b x26 then
        match r with
        | c1 :: c2 :: c3 :: r3 =>
            if str_eqb [c1; c2; c3] (bs "lt;") then option_map (cons x3c) (unescape r3)
            else if str_eqb [c1; c2; c3] (bs "gt;") then option_map (cons x3e) (unescape r3)
            else match r3 with
                 | c4 :: r4 =>
                     if str_eqb [c1; c2; c3; c4] (bs "amp;") then option_map (cons x26) (unescape r4)
                     else match r4 with
                          | c5 :: r5 =>
                              if str_eqb [c1; c2; c3; c4; c5] (bs "quot;") then option_map (cons x22) (unescape r5)
                              else if str_eqb [c1; c2; c3; c4; c5] (bs "nbsp;") then option_map (fun x => xc2 :: xa0 :: x) (unescape r5)
                              else None
                          | [] => None
                          end
                 | [] => None
                 end
        | _ => None
        end
      else option_map (cons b) (unescape r)
  end.
(** The longest beginning without the bytes of [stop]. *)
Fixpoint upto (stop : list byte) (s : str) : str * str :=
  match s with
  | [] => ([], [])
  | b :: r => if existsb (byte_eqb b) stop then ([], s) else let '(x, y) := upto stop r in (b :: x, y)
  end.

Inductive tok := Open (t : str) (a : list (str * str)) | Close (t : str) | Chars (s : str).
(** The attributes of a start tag, after its name: [ name="value"] until [>]. *)
Fixpoint lex_attrs (fuel : nat) (s : str) : option (list (str * str) * str) :=
  match fuel, s with
  | S n, b :: r =>
      if byte_eqb b x3e then Some ([], r)
      else if byte_eqb b x20 then
        let '(k, r1) := upto [x3d; x20; x3e; x2f; x22; x3c] r in
        if valid_name k && str_eqb (to_lower k) k then
          match r1 with
          | e :: q :: r2 =>
              if byte_eqb e x3d && byte_eqb q x22 then
                match upto [x22] r2 with
                | (v, _ :: r3) =>
                    match unescape v, lex_attrs n r3 with
                    | Some u, Some (l, r4) => Some ((k, u) :: l, r4)
                    | _, _ => None
                    end
                | _ => None
                end
              else None
          | _ => None
          end
        else None
      else None
  | _, _ => None
  end.
Fixpoint lex (fuel : nat) (s : str) : option (list tok) :=
  match fuel with
  | O => None
  | S n =>
      match s with
      | [] => Some []
      | b :: r =>
          if byte_eqb b x3c then
            match r with
            | c :: r' =>
                if byte_eqb c x2f then
                  match upto [x3e; x20] r' with
                  | (t, e :: r2) => if byte_eqb e x3e then option_map (cons (Close t)) (lex n r2) else None
                  | _ => None
                  end
                else let '(t, r1) := upto [x20; x3e] r in
                     match lex_attrs n r1 with
                     | Some (a, r2) => option_map (cons (Open t a)) (lex n r2)
                     | None => None
                     end
            | [] => None
            end
          else let '(t, r1) := upto [x3c] s in
               match unescape t, lex n r1 with
               | Some u, Some ts => Some (Chars u :: ts)
               | _, _ => None
               end
      end
  end.

(** Tree construction: the open elements, innermost first, each with the nodes in front of it; the nodes of the
    innermost one so far. Of two attributes with one name the first counts. *)
Fixpoint build (f : bool) (ts : list tok) (st : list (str * list (str * str) * list node)) (cur : list node) : option (list node) :=
  match ts with
  | [] => match st with [] => Some cur | _ => None end
  | Chars s :: r => build f r st (cur ++ [Text s])
  | Open t a :: r =>
      if opens f (map (fun x => fst (fst x)) st) t then
        if among void_tags t then build f r st (cur ++ [Elem t (entries a) [] []])
        else build f r ((t, a, cur) :: st) []
      else None
  | Close t :: r =>
      match st with
      | (t', a, before) :: st' => if str_eqb t t' then build f r st' (before ++ [Elem t (entries a) [] cur]) else None
      | [] => None
      end
  end.
(** Setting innerHTML of an element with the tag [new] (not in the document yet, so it has no ancestors). An empty text
    gives no nodes, except in [html], which gets head and body. Newlines are normalised and NUL is dropped by the
    Standard: no answer for texts with CR or NUL. *)
Definition html_parse (new : str) (m : str) : option (list node) :=
  if str_eqb new (bs "html") then None
  else match m with
       | [] => Some []
       | _ => if existsb (fun b => byte_eqb b x00 || byte_eqb b x0d) m then None
              else match kind_of new with
                   | None => None
                   | Some _ => match lex (S (length m)) m with Some ts => build (str_eqb new (bs "form")) ts [] [] | None => None end
                   end
       end.

(** A browser that follows the Standard, as far as the parser has an answer. *)
Definition standard (reparse : str -> str -> list node -> list node) : Prop :=
  forall old new ns r, html_parse new (inner_html old ns) = Some r -> reparse old new ns = r.
(** Such a browser. *)
Definition plain_browser (old new : str) (ns : list node) : list node :=
  match html_parse new (inner_html old ns) with Some r => r | None => ns end.
Lemma plain_browser_standard : standard plain_browser.
Proof. intros old new ns r H. unfold plain_browser. now rewrite H. Qed.

(** ** Markup that comes back as it was *)

(** No NUL, no carriage return. *)
Definition plain_chars (s : str) : Prop := ~ In x00 s /\ ~ In x0d s.
(** No empty text and no two texts in a row. *)
Fixpoint spaced (ns : list node) : bool :=
  match ns with
  | [] => true
  | Text s :: r => match s, r with [], _ => false | _, Text _ :: _ => false | _, _ => spaced r end
  | Elem _ _ _ _ :: r => spaced r
  end.
(** A node that may stand where the elements [st] are open: every element in it opens without closing others, names and
    characters are ordinary, and elements without content are empty. *)
Fixpoint nests (f : bool) (st : list str) (n : node) : Prop :=
  match n with
  | Text s => plain_chars s
  | Elem t a _ kids =>
      opens f st t = true /\
      Forall (fun kv => valid_name (fst kv) = true /\ to_lower (fst kv) = fst kv /\ plain_chars (snd kv)) (entries a) /\
      spaced kids = true /\ (among void_tags t = true -> kids = []) /\
      (fix all (ns : list node) : Prop := match ns with [] => True | c :: r => nests f (t :: st) c /\ all r end) kids
  end.
(** The node without its listeners. *)
Fixpoint copy (n : node) : node :=
  match n with
  | Text s => Text s
  | Elem t a _ kids => Elem t (entries a) [] (map copy kids)
  end.

(** ** Where elements come from *)

(** Every element has a tag in [T] and attribute names in [K]. *)
Fixpoint made_of (T K : str -> Prop) (n : node) : Prop :=
  match n with
  | Text _ => True
  | Elem t a _ kids =>
      T t /\ Forall (fun kv => K (fst kv)) a /\
      (fix all (ns : list node) : Prop := match ns with [] => True | c :: r => made_of T K c /\ all r end) kids
  end.
Definition tok_made_of (T K : str -> Prop) (k : tok) : Prop :=
  match k with
  | Open t a => kind_of t <> None /\ T t /\ Forall (fun kv => K (fst kv)) a
  | Close t => kind_of t <> None /\ among void_tags t = false
  | Chars _ => True
  end.
(** The Standard's tree construction, however the tags are nested: with the elements above, it makes elements only from
    start tags (moving and repeating some), and [p] elements for end tags of paragraphs that are not open. *)
Definition frugal (reparse : str -> str -> list node -> list node) : Prop :=
  forall (T K : str -> Prop) old new ns ts, kind_of new <> None -> T (bs "p") ->
  lex (S (length (inner_html old ns))) (inner_html old ns) = Some ts -> Forall (tok_made_of T K) ts ->
  Forall (made_of T K) (reparse old new ns).
