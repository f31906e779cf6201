(** Model of puck_liveview/src/dom/element/render.rs. *)
From Verif Require Import Base HMap DomModel.

Definition dquote : byte := x22.
(** render.rs:34-39 [write_attributes] (in the map's iteration order, here the order of the list). *)
Definition write_attributes (a : hmap str) : str :=
  flat_map (fun kv => [dquote] ++ fst kv ++ bs """=" ++ [dquote] ++ snd kv ++ bs """ ") a.
(** render.rs:24-26 [write_opening_tag]. *)
Definition write_opening_tag (e : element) : str :=
  bs "<" ++ el_name e ++ bs " " ++ write_attributes (el_attrs e) ++ bs " " ++ bs ">".
(** render.rs:29-31 [write_closing_tag]. *)
Definition write_closing_tag (e : element) : str := bs "</" ++ el_name e ++ bs ">".
(** render.rs:6-19 [Element::render]. *)
Fixpoint render (e : element) : str :=
  write_opening_tag e ++ match el_text e with Some t => t | None => [] end
  ++ (match e with Element _ _ _ _ cs _ _ => flat_map render cs end)
  ++ write_closing_tag e.
