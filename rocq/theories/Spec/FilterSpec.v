(** The pattern language of metric filters, independent of the compiler: an
    abstract syntax, its concrete syntax, and the set of values it denotes. *)
From Coq Require Import Ascii NArith Bool List Sorting.Sorted.
From Verif.Base Require Import Bytes.
From Verif.Spec Require Import TextSpec.
Import ListNotations.

(** ** Abstract syntax *)

(** One element of a pattern without wildcards. *)
Inductive item :=
| Lit (c : ascii)                                (* c        the character itself *)
| AnyChar                                        (* ?        any one character *)
| OneOf (neg : bool) (cs : bytes)                (* [abc]    one (not) of the characters *)
| InRanges (neg : bool) (rs : list (ascii * ascii)) (* [a-zA-Z] one character (not) in the ranges *)
| Alternatives (ws : list bytes).                (* {ab,cd}  one of the words *)

(** A pattern without leading '!'. *)
Inductive glob :=
| Exact (s : list item)                          (* s *)
| Everything                                     (* '*' *)
| StartsWith (s : list item)                     (* s '*' *)
| EndsWith (s : list item)                       (* '*' s *)
| Around (s t : list item)                       (* s '*' t *)
| Containing (w : bytes).                        (* '*' w '*' *)

Inductive pattern := Empty | Plain (g : glob) | Negated (g : glob).

(** ** Concrete syntax *)

Definition show_item (i : item) : bytes :=
  match i with
  | Lit c => [c]
  | AnyChar => ["?"%char]
  | OneOf neg cs => "["%char :: (if neg then ["!"%char] else []) ++ cs ++ ["]"%char]
  | InRanges neg rs =>
      "["%char :: (if neg then ["!"%char] else [])
        ++ flat_map (fun r => [fst r; "-"%char; snd r]) rs ++ ["]"%char]
  | Alternatives ws => "{"%char :: join_with ","%char ws ++ ["}"%char]
  end.

Definition show_items (s : list item) : bytes := flat_map show_item s.

Definition show_glob (g : glob) : bytes :=
  match g with
  | Exact s => show_items s
  | Everything => ["*"%char]
  | StartsWith s => show_items s ++ ["*"%char]
  | EndsWith s => "*"%char :: show_items s
  | Around s t => show_items s ++ "*"%char :: show_items t
  | Containing w => "*"%char :: w ++ ["*"%char]
  end.

Definition show (p : pattern) : bytes :=
  match p with
  | Empty => []
  | Plain g => show_glob g
  | Negated g => "!"%char :: show_glob g
  end.

(** ** Well-formedness: what makes the concrete syntax unambiguous *)

Definition item_wf (i : item) : Prop :=
  match i with
  | Lit c => ~ In c (["*"; "?"; "["; "{"]%char)
  | AnyChar => True
  | OneOf neg cs =>
      ~ In "]"%char cs /\ ~ In "*"%char cs /\
      (* not empty and not starting with '!' unless negated *)
      (neg = false -> exists c r, cs = c :: r /\ c <> "!"%char) /\
      (* a '-' in second place makes it a list of ranges *)
      (forall c d r, cs = c :: d :: r -> d <> "-"%char)
  | InRanges neg rs =>
      rs <> [] /\
      Forall (fun r => ~ In (fst r) ["]"; "*"]%char /\ ~ In (snd r) ["]"; "*"]%char
                       /\ (N_of_ascii (fst r) <= N_of_ascii (snd r))%N) rs /\
      (neg = false -> forall r rs', rs = r :: rs' -> fst r <> "!"%char)
  | Alternatives ws =>
      ws <> [] /\ ws <> [[]] /\
      Forall (fun w => ~ In ","%char w /\ ~ In "}"%char w /\ ~ In "*"%char w) ws
  end.

Definition items_wf (s : list item) : Prop := s <> [] /\ Forall item_wf s.

Definition glob_wf (g : glob) : Prop :=
  match g with
  | Exact s => items_wf s
  | Everything => True
  | StartsWith s => items_wf s
  | EndsWith s => items_wf s
  | Around s t => items_wf s /\ items_wf t
  | Containing w => w <> [] /\ Forall (fun c => ~ In c ["*"; "?"; "["; "{"]%char) w
  end.

Definition pattern_wf (p : pattern) : Prop :=
  match p with
  | Empty => True
  | Plain g => glob_wf g /\ forall r, show_glob g <> "!"%char :: r
  | Negated g => glob_wf g
  end.

(** ** Denotation *)

Definition in_some_range (c : ascii) (rs : list (ascii * ascii)) : Prop :=
  exists r, In r rs /\ (N_of_ascii (fst r) <= N_of_ascii c <= N_of_ascii (snd r))%N.

(** [item_lang i w]: the item stands for the text [w]. *)
Inductive item_lang : item -> bytes -> Prop :=
| IL_lit c : item_lang (Lit c) [c]
| IL_any c : item_lang AnyChar [c]
| IL_in cs c : In c cs -> item_lang (OneOf false cs) [c]
| IL_notin cs c : ~ In c cs -> item_lang (OneOf true cs) [c]
| IL_range rs c : in_some_range c rs -> item_lang (InRanges false rs) [c]
| IL_notrange rs c : ~ in_some_range c rs -> item_lang (InRanges true rs) [c]
| IL_alt ws w : In w ws -> item_lang (Alternatives ws) w.

Inductive items_lang : list item -> bytes -> Prop :=
| SL_nil : items_lang [] []
| SL_cons i s u w : item_lang i u -> items_lang s w -> items_lang (i :: s) (u ++ w).

(** The language of patterns as documented. *)
Inductive glob_lang : glob -> bytes -> Prop :=
| GL_exact s w : items_lang s w -> glob_lang (Exact s) w
| GL_all w : glob_lang Everything w
| GL_starts s u r : items_lang s u -> glob_lang (StartsWith s) (u ++ r)
| GL_ends s l u : items_lang s u -> glob_lang (EndsWith s) (l ++ u)
| GL_around s t u m w : items_lang s u -> items_lang t w -> glob_lang (Around s t) (u ++ m ++ w)
| GL_contains w l r : glob_lang (Containing w) (l ++ w ++ r).

Definition pattern_lang (p : pattern) (v : bytes) : Prop :=
  match p with
  | Empty => v = []
  | Plain g => glob_lang g v
  | Negated g => ~ glob_lang g v
  end.

(** The language the code implements for "s*t": a prefix in s and a suffix in t
    that may overlap. *)
Definition glob_lang_overlap (g : glob) (v : bytes) : Prop :=
  match g with
  | Around s t =>
      (exists u r, v = u ++ r /\ items_lang s u) /\ (exists l w, v = l ++ w /\ items_lang t w)
  | _ => glob_lang g v
  end.

Definition pattern_lang_overlap (p : pattern) (v : bytes) : Prop :=
  match p with
  | Empty => v = []
  | Plain g => glob_lang_overlap g v
  | Negated g => ~ glob_lang_overlap g v
  end.

(** ** Side condition: alternatives need no backtracking *)

Definition prefix_of (u w : bytes) : Prop := exists r, w = u ++ r.
Definition suffix_of (u w : bytes) : Prop := exists l, w = l ++ u.

(** No alternative is a proper prefix (read from the left) or a proper suffix
    (read from the right) of another one, and none is empty. *)
Definition unambiguous_item (from_right : bool) (i : item) : Prop :=
  match i with
  | Alternatives ws =>
      ~ In [] ws /\
      forall u w, In u ws -> In w ws ->
        (if from_right then suffix_of u w else prefix_of u w) -> u = w
  | _ => True
  end.

Definition unambiguous_glob (g : glob) : Prop :=
  match g with
  | Exact s => Forall (unambiguous_item false) s
  | StartsWith s => Forall (unambiguous_item false) s
  | EndsWith s => Forall (unambiguous_item true) s
  | Around s t => Forall (unambiguous_item false) s /\ Forall (unambiguous_item true) t
  | _ => True
  end.

Definition unambiguous (p : pattern) : Prop :=
  match p with Empty => True | Plain g => unambiguous_glob g | Negated g => unambiguous_glob g end.

(** Longest text an item can stand for. *)
Definition item_width (i : item) : nat :=
  match i with
  | Alternatives ws => list_max (map (@length ascii) ws)
  | _ => 1
  end.
Definition items_width (s : list item) : nat := list_sum (map item_width s).

(** A value long enough that a prefix and a suffix of "s*t" cannot overlap. *)
Definition long_enough (p : pattern) (v : bytes) : Prop :=
  match p with
  | Plain (Around s t) | Negated (Around s t) => items_width s + items_width t <= length v
  | _ => True
  end.

(** ** Tag filter strings *)

(** The white space of Unicode, by code points, in UTF-8. *)
Definition white_point (c : N) : Prop :=
  (9 <= c <= 13 \/ c = 0x20 \/ c = 0x85 \/ c = 0xA0 \/ c = 0x1680 \/ 0x2000 <= c <= 0x200A \/
   c = 0x2028 \/ c = 0x2029 \/ c = 0x202F \/ c = 0x205F \/ c = 0x3000)%N.
Definition white (w : bytes) : Prop := exists c, white_point c /\ w = utf8_encode c.

(** A token: non-empty, without spaces, and without white space at its ends. *)
Definition token (t : bytes) : Prop :=
  t <> [] /\ ~ In " "%char t /\
  (forall w r, t = w ++ r -> ~ white w) /\ (forall w r, t = r ++ w -> ~ white w).

Definition blanks (s : bytes) : Prop := exists ws, Forall white ws /\ s = concat ws.

(** [spaced ts s]: [s] lists the tokens [ts], two neighbours separated by white
    space that contains at least one space, with any white space around. *)
Inductive spaced : list bytes -> bytes -> Prop :=
| Sp_nil s : blanks s -> spaced [] s
| Sp_last l t r : blanks l -> token t -> blanks r -> spaced [t] (l ++ t ++ r)
| Sp_cons l t r t' ts s :
    blanks l -> token t -> blanks r -> spaced (t' :: ts) s ->
    spaced (t :: t' :: ts) (l ++ t ++ r ++ " "%char :: s).

(** A tag filter: name ':' pattern, both without ':' and not empty. *)
Definition tag_filter_text (n p : bytes) : bytes := n ++ ":"%char :: p.
Definition tag_filter_ok (n p : bytes) : Prop :=
  n <> [] /\ p <> [] /\ ~ In ":"%char n /\ ~ In ":"%char p.

(** ** Tags *)

(** Value of the first pair with the given name. *)
Inductive first_value (n : bytes) : list (bytes * bytes) -> bytes -> Prop :=
| FV_here v ps : first_value n ((n, v) :: ps) v
| FV_later m v ps w : m <> n -> first_value n ps w -> first_value n ((m, v) :: ps) w.

(** Tags in ascending order of their names. *)
Definition names_sorted (ps : list (bytes * bytes)) : Prop :=
  StronglySorted (fun x y => bleb (fst x) (fst y) = true) ps.

(** What a tag filter condition [(name, g)] says about a metric with the given
    name and tags: the filter keyed by [key] looks at the metric name, any other
    one at the value of the first tag of that name, which must exist. *)
Definition condition (key : bytes) (test : bytes -> bool) (n : bytes)
    (metric_name : bytes) (tags : list (bytes * bytes)) : Prop :=
  (n = key /\ test metric_name = true) \/
  (n <> key /\ exists v, first_value n tags v /\ test v = true).

(** ** Metric IDs *)

(** Separators that may not occur in a tag: the name ends at the first '=' and
    the value at the first ','. *)
Definition tag_ok (p : bytes * bytes) : Prop := ~ In "="%char (fst p) /\ ~ In ","%char (snd p).
Definition name_ok (n : bytes) : Prop := ~ In "+"%char n.

(** [tag_section ps malformed s]: reading the tag section [s] from the left gives
    the tags [ps]; [malformed] tells whether what follows them is not a tag. *)
Inductive tag_section : list (bytes * bytes) -> bool -> bytes -> Prop :=
| TS_end : tag_section [] false []
| TS_bad j : j <> [] -> ~ In "="%char j -> tag_section [] true j
| TS_last n v : tag_ok (n, v) -> tag_section [(n, v)] false (n ++ "="%char :: v)
| TS_cons n v ps e s :
    tag_ok (n, v) -> tag_section ps e s ->
    tag_section ((n, v) :: ps) e (n ++ "="%char :: v ++ ","%char :: s).

(** "<...m3>+<name>+<tag section>" *)
Definition id_text (before name tags : bytes) : bytes :=
  before ++ ["m"; "3"; "+"]%char ++ name ++ "+"%char :: tags.
