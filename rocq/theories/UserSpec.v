(** What can be said about a user at the browser, without looking at the instructions sent. *)
From Verif Require Import Base HMap Num DomModel.

(** A page that follows another one and keeps all its elements in place: attributes, listeners and texts may change (texts
    only where there are no child elements), child elements are only added at the end. *)
Inductive grown : element -> element -> Prop :=
| Grown i n a a' l l' cs cs' more t t' :
    Forall2 grown cs cs' -> (cs = [] \/ t = t') ->
    grown (Element i n a l cs t None) (Element i n a' l' (cs' ++ more) t' None).
(** The text without its line breaks (line feeds and carriage returns), otherwise unchanged. *)
Inductive unbroken : str -> str -> Prop :=
| UnbrokenEnd : unbroken [] []
| UnbrokenBreak b s t : b = x0a \/ b = x0d -> unbroken s t -> unbroken (b :: s) t
| UnbrokenByte b s t : b <> x0a -> b <> x0d -> unbroken s t -> unbroken (b :: s) (b :: t).
(** The elements from one inside the page (first) out to the page's root (last). *)
Inductive line : element -> list element -> Prop :=
| LineHere e : line e [e]
| LineIn e c es : In c (el_children e) -> line c es -> line e (es ++ [e]).
