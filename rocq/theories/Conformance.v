(** The assertions of the repository's own tests, replayed on the model. These are checks of the model
    against the expectations its authors wrote down, not properties. *)
From Verif Require Import Base HMap Num Utf8 Io WsModel Sha1 UpgradeModel HttpModel Httparse RouterModel DomModel DomSpec DomProofs4 HtmlModel RenderModel.

Definition m32 : machine := Machine 32 (2 ^ 31 - 1) (fun _ => 32).

(** puck/src/ws/frame.rs:231-256. *)
Example test_parse_frames :
  fst (frame_parse m32 [Data [n2b 137; n2b 0]]) = Ok (Frame true false false false OpPing []) /\
  fst (frame_parse m32 [Data [n2b 138; n2b 0]]) = Ok (Frame true false false false OpPong []).
Proof. split; vm_compute; reflexivity. Qed.

(** puck/src/ws/upgrade.rs:68-74. *)
Example test_compute_upgrade_header :
  accept_header sha1 (bs "dGhlIHNhbXBsZSBub25jZQ==") = bs "s3pPLMBiTxaQ9kYGzzhZRbK+xOo=".
Proof. vm_compute. reflexivity. Qed.

(** puck/src/core/router/match_url.rs:94-110; the path segments of the two URLs. *)
Example test_simple :
  let matcher := match_at (match_at (match_at (match_at (match_at match_new (Static (bs "home"))) (Static (bs "name"))) Param)
                   (Static (bs "page"))) IntParam in
  match_loop matcher [bs "home"; bs "name"; bs "someone"; bs "page"; bs "12"] = true /\
  match_loop matcher [bs "home"; bs "name"; bs "someone"; bs "page"; bs "twelve"] = false.
Proof. vm_compute. auto. Qed.

(** puck/src/regressions/mod.rs:5-42: a written request is parsed again with the same headers. URLs are
    their text; the URL http://example.com has the path "/". *)
Definition test_env : env str := {|
  parse_head_req := httparse_request; parse_head_resp := httparse_response;
  url_parse := Some; url_path := fun _ => bs "/"; url_segments := fun _ => Some [[]];
  iter_order := fun m => m; usize_bits := 32; max_string := 2 ^ 31 - 1 |}.
Definition execute_test (headers : list (str * str)) (body : str) : bool :=
  match rqb_try_new test_env (bs "http://example.com") with
  | None => false
  | Some b =>
      match rqb_try_build (rqb_body (body_from_string body) (rqb_method Get (rqb_headers headers b))) with
      | None => false
      | Some req =>
          match request_write test_env (fun _ => 512) req None with
          | (bytes, Ok _) =>
              match request_parse test_env [Data bytes] with
              | Ok (Some req') =>
                  forallb (fun kv => existsb (fun kv' => str_eqb (fst kv) (fst kv') && str_eqb (snd kv) (snd kv')) headers) (rq_headers req')
                  && negb (match rq_headers req' with [] => true | _ => false end)
              | _ => false
              end
          | _ => false
          end
      end
  end.
Example test_inverse_request_regression_2021_06_06_morning :
  execute_test [(bs "NW", bs "gcfZ-spKEf-v-gh"); (bs "Host", bs "example.com")]
    (bs "u" ++ [n2b 240; n2b 152; n2b 144; n2b 191] ++ bs "\K;" ++ [n2b 225; n2b 191; n2b 151] ++ bs "R") = true.
Proof. vm_compute. reflexivity. Qed.
Example test_inverse_request_regression_2021_06_06_afternoon :
  execute_test [(bs "aA", bs "aa"); (bs "Host", bs "example.com")] [] = true.
Proof. vm_compute. reflexivity. Qed.

(** "diff, apply, compare": the shape of all diffing tests. Elements are compared as the derived
    [PartialEq] does, attribute maps as maps. *)
Definition hm_same (a b : hmap str) : bool := hm_eqb a b.
Definition key_same (a b : option str) : bool :=
  match a, b with None, None => true | Some x, Some y => str_eqb x y | _, _ => false end.
Fixpoint el_eqb (a b : element) {struct a} : bool :=
  match a, b with
  | Element i1 n1 a1 l1 c1 t1 k1, Element i2 n2 a2 l2 c2 t2 k2 =>
      N.eqb i1 i2 && str_eqb n1 n2 && hm_same a1 a2 && listeners_eqb l1 l2 && text_eqb t1 t2 && key_same k1 k2 &&
      (fix go (x y : list element) : bool :=
         match x, y with
         | [], [] => true
         | e :: x', f :: y' => el_eqb e f && go x' y'
         | _, _ => false
         end) c1 c2
  end.
Definition diff_apply_test (before after : element) : bool :=
  match diff before (Some after) with
  | Some os => match apply (usize_max 64) os before with Some e => el_eqb e after | None => false end
  | None => false
  end.

Definition el (i : N) (n : str) : element := Element i n [] [] [] None None.
Definition txt (i : N) (n t : str) : element := Element i n [] [] [] (Some t) None.

(** puck_liveview/src/dom/element/diff/test_diffing.rs:7-27. *)
Example test_name_change : diff_apply_test (el 0 (bs "div")) (el 0 (bs "p")) = true.
Proof. vm_compute. reflexivity. Qed.
(** test_diffing.rs:29-78. *)
Example test_single_element_attribute_change :
  let old := Element 0 (bs "div") [(bs "class", bs "one"); (bs "attribute-which-doesn-t-exist-after-diffing", bs "1")] [] [] None None in
  let new := Element 0 (bs "div") [(bs "class", bs "two"); (bs "new-attribute-added-after-diffing", bs "value")] [] [] None None in
  exists os, diff old (Some new) = Some os /\ length os = 3 /\
    In (SetAttribute (bs "new-attribute-added-after-diffing") (bs "value")) (map op_instr os) /\
    In (SetAttribute (bs "class") (bs "two")) (map op_instr os).
Proof. eexists. split; [vm_compute; reflexivity|]. vm_compute. auto 8. Qed.
(** test_diffing.rs:80-102. *)
Example test_single_element_text_change :
  diff_apply_test (txt 0 (bs "p") (bs "the cat sat on the mat")) (txt 0 (bs "p") (bs "the mat sat on the cat")) = true.
Proof. vm_compute. reflexivity. Qed.
(** test_diffing.rs:104-191: the two tests marked "ignore: todo: fix" fail in the model too (see C53). *)
Definition keyed (i : N) (k t : str) : element := Element i (bs "p") [] [] [] (Some t) (Some k).
Example ignored_tests_fail :
  let div cs := Element 0 (bs "div") [] [] cs None None in
  let cat := bs "the cat sat on the mat" in let mat := bs "the mat sat on the cat" in
  diff_apply_test (div [keyed 3 (bs "a") cat]) (div [keyed 3 (bs "a") cat; keyed 2 (bs "b") mat]) = false /\
  diff_apply_test (div [keyed 3 (bs "a") cat]) (div [keyed 3 (bs "b") mat; keyed 2 (bs "a") cat]) = false.
Proof. vm_compute. auto. Qed.
(** test_diffing.rs:193-364. *)
Example test_more_complex_diff :
  let kid3 := Element 3 (bs "div") [] [] [Element 4 (bs "input") [] [Listener (bs "msg-input") (bs "input")] [] None None] None None in
  let kid2 := Element 2 (bs "div") [] [] [Element 5 (bs "button") [] [Listener (bs "msg-submit") (bs "click")] [] (Some (bs "Send message")) None] None None in
  let p i cl t := Element i (bs "p") [(bs "class", cl)] [] [] (Some t) None in
  let kid9 := Element 9 (bs "div") [(bs "class", bs "message-container")] []
    [p 8%N (bs "message-sent-at") (bs "1970-01-25 06:34:13"); p 6%N (bs "message-author") (bs "[username not set]");
     p 7%N (bs "message-contents") (bs "sending message")] None None in
  let div cs := Element 0 (bs "div") [(bs "class", bs "message-list")] [] cs None None in
  diff_apply_test (div [kid3; kid2]) (div [kid3; kid2; kid9]) = true.
Proof. vm_compute. reflexivity. Qed.

(** puck_liveview/src/regressions/mod.rs:11-26. *)
Example diffing_regression_2021_06_06 :
  match into_element (wrap KH1 [([n2b 194; n2b 161], [])] []) 0, into_element (wrap KH1 [] []) 0 with
  | Some (a, _), Some (b, _) => diff_apply_test a b = true
  | _, _ => False
  end.
Proof. vm_compute. reflexivity. Qed.
(** regressions/mod.rs:28-177. *)
Example diffing_regression_2022_01_23 :
  let input i at_ l := Element i (bs "input") at_ [l] [] None None in
  let div i cs := Element i (bs "div") [] [] cs None None in
  diff_apply_test
    (div 0 [div 1 [input 2 [(bs "type", bs "text"); (bs "value", bs "name"); (bs "placeholder", bs "username...")] (Listener (bs "set_username") (bs "input"))];
            div 3 [input 4 [(bs "type", bs "submit")] (Listener (bs "initialize_username") (bs "click"))]])%N
    (div 0 [div 1 [txt 2 (bs "p") (bs "Hello teymour (user_id: 0)!");
                   div 3 [input 4 [(bs "placeholder", bs "send a new message..."); (bs "type", bs "text"); (bs "value", [])] (Listener (bs "update_message_contents") (bs "input"))];
                   div 5 [input 6 [(bs "type", bs "submit"); (bs "value", bs "send message")] (Listener (bs "submit_message") (bs "click"))]]])%N = true.
Proof. vm_compute. reflexivity. Qed.
(** regressions/mod.rs:179-198. *)
Example simple_listener_test :
  diff_apply_test (Element 0 [] [] [Listener (bs "one") (bs "two"); Listener (bs "three") (bs "four")] [] None None)
                  (Element 0 [] [] [Listener (bs "one") (bs "two")] [] None None) = true.
Proof. vm_compute. reflexivity. Qed.

(** puck_liveview/src/html/mod.rs:226-255 with the files tree, bigger_tree, id_not_starting_from_zero. *)
Example test_into_element :
  option_map fst (into_element (wrap KDiv [] []) 0) = Some (el 0 (bs "div")) /\
  option_map fst (into_element (add_child (add_listener (Listener (bs "a_listener") (bs "click")) (wrap KInput [(bs "type", bs "submit")] []))
                                 (add_child (wrap KH1 [] (bs "Heading 1")) (wrap KDiv [] []))) 0) =
    Some (Element 0 (bs "div") [] [] [txt 1 (bs "h1") (bs "Heading 1");
            Element 2 (bs "input") [(bs "type", bs "submit")] [Listener (bs "a_listener") (bs "click")] [] None None] None None) /\
  option_map fst (into_element (add_child (wrap KInput [(bs "type", bs "submit")] []) (add_child (wrap KInput [(bs "type", bs "text")] []) (wrap KForm [] [])))
                                 (snd (new_id 0))) =
    Some (Element 1 (bs "form") [] [] [Element 2 (bs "input") [(bs "type", bs "text")] [] [] None None;
            Element 3 (bs "input") [(bs "type", bs "submit")] [] [] None None] None None).
Proof. vm_compute. auto. Qed.

(** puck_liveview/src/dom/element/render.rs:48-105 checks with an HTML parser that this text has one div with two
    paragraphs. *)
Example test_render_nested_tags :
  render (Element 0 (bs "div") [] [] [keyed 1 (bs "a") (bs "the cat sat on the mat"); keyed 2 (bs "b") (bs "the mat sat on the cat")] None None) =
  bs "<div  ><p  >the cat sat on the mat</p><p  >the mat sat on the cat</p></div>".
Proof. vm_compute. reflexivity. Qed.

(** puck_liveview/tests/diffing.rs:37-43. *)
Definition test_diff (k1 : kind) (a1 : hmap str) (t1 : str) (k2 : kind) (a2 : hmap str) (t2 : str) : bool :=
  match into_element (wrap k1 a1 t1) 0, into_element (wrap k2 a2 t2) 0 with
  | Some (a, _), Some (b, _) => diff_apply_test a b
  | _, _ => false
  end.
Example many_cov_hits :
  test_diff KA [] [] KLabel [] [] = true /\
  test_diff KImg [(bs "9", bs "6"); (bs "p", []); (bs "F", [])] [] KH2 [(bs "p", []); (bs "C", []); (bs "9", [])] [] = true.
Proof. vm_compute. auto. Qed.
