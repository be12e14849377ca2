(** Specification of parsing, independent of the parsing engine of Parser.v.

    [derives g f]: the list of trees [f] is a parse of the grammar expression [g].
    [lang g w]: the token string [w] is a sentence of [g].
    [sel g V w f w']: reading [g] at the start of [w], when what remains must satisfy [V], by
    taking at every choice the first listed alternative from which the whole rest of the input
    can still be parsed, gives the trees [f] and leaves [w']. *)
From Coq Require Import List NArith.
From Verif Require Import Lexer Grammar Parser.
Import ListNotations.

Inductive derives : gexp -> list tree -> Prop :=
| D_cls : forall ts t, In (tt t) ts -> derives (Cls ts) [Leaf t]
| D_eps : derives Eps []
| D_nt : forall r f, derives (body r) f -> derives (Nt r) [Node r f]
| D_seq : forall a b f1 f2, derives a f1 -> derives b f2 -> derives (Seq a b) (f1 ++ f2)
| D_altl : forall a b f, derives a f -> derives (Alt a b) f
| D_altr : forall a b f, derives b f -> derives (Alt a b) f
| D_star0 : forall a, derives (Star a) []
| D_star1 : forall a f1 f2, derives a f1 -> derives (Star a) f2 -> derives (Star a) (f1 ++ f2).

Definition lang (g : gexp) (w : word) : Prop := exists f, derives g f /\ yields f = w.

(** [w] splits into a sentence of [g] and a rest that satisfies [V]. *)
Definition viable (g : gexp) (V : word -> Prop) (w : word) : Prop :=
  exists u v, w = u ++ v /\ lang g u /\ V v.

Inductive sel : gexp -> (word -> Prop) -> word -> list tree -> word -> Prop :=
| S_cls : forall ts V t w, In (tt t) ts -> sel (Cls ts) V (t :: w) [Leaf t] w
| S_eps : forall V w, sel Eps V w [] w
| S_nt : forall r V w f w', sel (body r) V w f w' -> sel (Nt r) V w [Node r f] w'
| S_seq : forall a b V w f1 w1 f2 w2,
    sel a (viable b V) w f1 w1 -> sel b V w1 f2 w2 -> sel (Seq a b) V w (f1 ++ f2) w2
| S_altl : forall a b V w f w',
    viable a V w -> sel a V w f w' -> sel (Alt a b) V w f w'
| S_altr : forall a b V w f w',
    ~ viable a V w -> sel b V w f w' -> sel (Alt a b) V w f w'
| S_star1 : forall a V w f1 w1 f2 w2,
    viable a (viable (Star a) V) w ->
    sel a (viable (Star a) V) w f1 w1 -> sel (Star a) V w1 f2 w2 ->
    sel (Star a) V w (f1 ++ f2) w2
| S_star0 : forall a V w,
    ~ viable a (viable (Star a) V) w -> sel (Star a) V w [] w.

(** The tree of a whole input for start rule [r]. *)
Definition selected (r : rule) (w : word) (t : tree) : Prop :=
  sel (Nt r) (eq []) w [t] [].
