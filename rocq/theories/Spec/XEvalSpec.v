(** XPath 1.0, sections 3 and 4: what an expression means. *)
From Coq Require Import SpecFloat.
From Verif.Model Require Import Base XNode XAxis XNodeSet XCompare XStep XEval.
From Verif.Spec Require Import TextSpec XOrder XAxisSpec XNodeSetSpec XCompareSpec XNumberSpec XStringSpec XStepSpec.

(** * String values (5.2 to 5.7) *)
Fixpoint leading_texts (l : list xtree) : str :=
  match l with
  | k :: r => match t_kind k with Xtext | Xcdata => i_value (t_info k) ++ leading_texts r | _ => [] end
  | [] => []
  end.
(** A text node of XPath is made of all the texts that stand next to each other.  The nodes of
    the DOM that XPath does not know have no string value. *)
Definition string_at (f : forest) (x : xnode) : option str :=
  let t := f_tree f (fst x) in
  match subtree t (snd x) with
  | None => None
  | Some u =>
      match t_kind u, snd x with
      | (Xdocument | Xfragment | Xelement), _ => Some (texts u)
      | (Xattribute | Xpi | Xcomment), _ => Some (i_value (t_info u))
      | (Xtext | Xcdata), Kid i :: q => match subtree t q with Some w => Some (leading_texts (skipn i (t_kids w))) | None => None end
      | _, _ => None
      end
  end.

(** * Conversions (4.2, 4.4) *)
(** What is not said here: how numbers are read and written. *)
Record conversions := Conversions { c_num : str -> spec_float; c_show : spec_float -> str }.
Definition reading (c : conversions) (f : forest) : reader :=
  Reader (c_num c) (c_show c) (fun x => match string_at f x with Some s => s | None => [] end).
Definition first (f : forest) (s : nodeset) (x : xnode) : Prop := In x (s_nodes s) /\ forall y, In y (s_nodes s) -> y = x \/ precedes f x y.
Definition text_true : str := [116; 114; 117; 101].
Definition text_false : str := [102; 97; 108; 115; 101].
Definition as_text (c : conversions) (f : forest) (v : value) (t : str) : Prop :=
  match v with
  | VBool b => t = if b then text_true else text_false
  | VNum n => t = c_show c n
  | VStr s => t = s
  | VSet s => (s_nodes s = [] /\ t = []) \/ exists x, first f s x /\ string_at f x = Some t
  end.
Definition as_num (c : conversions) (f : forest) (v : value) (n : spec_float) : Prop :=
  match v with
  | VBool b => n = of_bool b
  | VNum m => n = m
  | _ => exists t, as_text c f v t /\ n = c_num c t
  end.

(** * Functions (4.1 to 4.4) *)
(** The members of a set, each once. *)
Definition listing (s : nodeset) (l : list xnode) : Prop := NoDup l /\ forall x, In x l <-> In x (s_nodes s).
(** The names of a node: its expanded name and the name as it is written. *)
Definition has_local_name (i : xinfo) (s : str) : Prop :=
  match i_kind i with
  | Xelement | Xattribute => s = if Nat.eqb (length (i_uri i)) 0 then i_name i else i_local i
  | Xpi => s = i_name i
  | Xnamespace => True
  | _ => s = []
  end.
Definition has_uri (i : xinfo) (s : str) : Prop := match i_kind i with Xelement | Xattribute => s = i_uri i | _ => s = [] end.
Definition has_name (i : xinfo) (s : str) : Prop :=
  match i_kind i with Xelement | Xattribute | Xpi => s = i_name i | Xnamespace => True | _ => s = [] end.
Definition name_of (f : forest) (has : xinfo -> str -> Prop) (x : xnode) (s : str) : Prop :=
  exists u, subtree (f_tree f (fst x)) (snd x) = Some u /\ has (t_info u) s.
(** About the context node, or the first node of a set.  (Another argument is an error.) *)
Definition about (f : forest) (has : xinfo -> str -> Prop) (x : xnode) (vs : list value) (v : value) : Prop :=
  exists t, v = VStr t /\
  match vs with
  | [] => name_of f has x t
  | [VSet s] => (s_nodes s = [] /\ t = []) \/ exists y, first f s y /\ name_of f has y t
  | [_] => True
  | _ => False
  end.
(** The argument as a string, or the string value of the context node. *)
Definition text_or_here (c : conversions) (f : forest) (x : xnode) (vs : list value) (t : str) : Prop :=
  match vs with [] => string_at f x = Some t | [w] => as_text c f w t | _ => False end.
(** substring, where it is settled (see C41). *)
Definition small_round (a : spec_float) (k : Z) : Prop := double a /\ finite a /\ ~ unlucky a /\ rounds_to a k /\ Z.abs k < 2 ^ 52.
Definition is_substring (s : str) (a : spec_float) (b : option spec_float) (t : str) : Prop :=
  (a = S754_nan \/ b = Some S754_nan -> t = []) /\
  (Z.of_nat (length s) < 2147483648 -> forall ka, small_round a ka -> ka - 1 <= Z.of_nat (length s) ->
    (b = None -> picked (fun p => ka <= p) 1 s t) /\
    forall n kb, b = Some n -> small_round n kb -> picked (fun p => ka <= p < ka + kb) 1 s t).
(** translate, where it is settled: nothing that stays comes after a character that is removed. *)
Definition is_translation (s from to t : str) : Prop :=
  forall a b, s = a ++ b -> (forall c, In c a -> In c from -> ~ becomes from to c []) -> (forall c, In c b -> In c from) -> translation from to s t.
Definition is_floor (n m : spec_float) : Prop :=
  (double n -> finite n -> exists k, k * denominator n <= numerator n < (k + 1) * denominator n /\ is_integer m k) /\ (~ finite n -> m = n).
Definition is_ceiling (n m : spec_float) : Prop :=
  (double n -> finite n -> exists k, (k - 1) * denominator n < numerator n <= k * denominator n /\ is_integer m k) /\ (~ finite n -> m = n).
Definition is_round (n m : spec_float) : Prop :=
  (double n -> finite n -> ~ unlucky n -> exists k, rounds_to n k /\ is_integer m k) /\ (~ finite n -> m = n).
(** A function of its arguments' values. *)
Definition applies (c : conversions) (f : forest) (g : fn) (x : xnode) (position last : Z) (vs : list value) (v : value) : Prop :=
  match g, vs with
  | Position, [] => v = VNum (of_Z position)
  | Last, [] => v = VNum (of_Z last)
  | Count, [VSet s] => exists l, listing s l /\ v = VNum (of_Z (Z.of_nat (length l)))
  | Count, [_] => exists n, v = VNum n
  | LocalName, _ => about f has_local_name x vs v
  | NamespaceUri, _ => about f has_uri x vs v
  | Name, _ => about f has_name x vs v
  | String_, _ => exists t, text_or_here c f x vs t /\ v = VStr t
  | Concat, _ :: _ :: _ => exists ts, Forall2 (as_text c f) vs ts /\ v = VStr (concat ts)
  | StartsWith, [a; b] => exists s t r, as_text c f a s /\ as_text c f b t /\ v = VBool r /\ (r = true <-> exists y, s = t ++ y)
  | Contains, [a; b] => exists s t r, as_text c f a s /\ as_text c f b t /\ v = VBool r /\ (r = true <-> exists y z, s = y ++ t ++ z)
  | SubstringBefore, [a; b] => exists s t u, as_text c f a s /\ as_text c f b t /\ v = VStr u /\
      (forall y z, splits s t y z -> u = y) /\ ((forall y z, s <> y ++ t ++ z) -> u = [])
  | SubstringAfter, [a; b] => exists s t u, as_text c f a s /\ as_text c f b t /\ v = VStr u /\
      (forall y z, splits s t y z -> u = z) /\ ((forall y z, s <> y ++ t ++ z) -> u = [])
  | Substring, [a; b] => exists s m u, as_text c f a s /\ as_num c f b m /\ v = VStr u /\ is_substring s m None u
  | Substring, [a; b; d] => exists s m n u, as_text c f a s /\ as_num c f b m /\ as_num c f d n /\ v = VStr u /\ is_substring s m (Some n) u
  | StringLength, _ => exists t, text_or_here c f x vs t /\ v = VNum (of_Z (Z.of_nat (length t)))
  | NormalizeSpace, _ => exists t, text_or_here c f x vs t /\ v = VStr (spaced (words t))
  | Translate, [a; b; d] => exists s from to t, as_text c f a s /\ as_text c f b from /\ as_text c f d to /\ v = VStr t /\ is_translation s from to t
  | Boolean, [a] => v = VBool (truth a)
  | Not, [a] => v = VBool (negb (truth a))
  | True_, [] => v = VBool true
  | False_, [] => v = VBool false
  | Number, [] => exists t, string_at f x = Some t /\ v = VNum (c_num c t)
  | Number, [a] => exists n, as_num c f a n /\ v = VNum n
  | Sum, [VSet s] => exists l ts, listing s l /\ Forall2 (fun y t => string_at f y = Some t) l ts /\ v = VNum (fold_left fadd (map (c_num c) ts) zero)
  | Sum, [_] => exists n, v = VNum n
  | Floor, [a] => exists n m, as_num c f a n /\ v = VNum m /\ is_floor n m
  | Ceiling, [a] => exists n m, as_num c f a n /\ v = VNum m /\ is_ceiling n m
  | Round, [a] => exists n m, as_num c f a n /\ v = VNum m /\ is_round n m
  | _, _ => False
  end.
(** The operators on numbers; mod where it is settled (see C42). *)
Definition calculates (op : arith) (a b r : spec_float) : Prop :=
  match op with
  | Plus => r = SFadd 53 1024 a b
  | Minus => r = SFsub 53 1024 a b
  | Multiply => r = SFmul 53 1024 a b
  | Divide => r = SFdiv 53 1024 a b
  | Mod => (a = S754_nan \/ b = S754_nan -> r = S754_nan) /\
      forall x y, is_integer a x -> is_integer b y -> -9223372036854775808 <= x < 9223372036854775808 -> 0 < Z.abs y <= 2 ^ 53 ->
        is_integer r (Z.rem x y) /\ remainder a b r
  end.

(** * Expressions (section 3) *)
(** The values of the variables are given; the values of sets are sets of nodes, whatever the
    order in which a [nodeset] holds them.  A comparison where the code goes wrong (see C39) may
    have any result; substring of an empty string need not look at the other arguments. *)
Fixpoint means (c : conversions) (f : forest) (vars : str -> str -> value -> Prop) (e : expr) : meaning := fun x p l v =>
  match e with
  | ENumber n => v = VNum n
  | ELiteral s => v = VStr s
  | EVariable uri name => vars uri name v
  | EOr a b => exists u, means c f vars a x p l u /\
      ((truth u = true /\ v = VBool true) \/ (truth u = false /\ exists w, means c f vars b x p l w /\ v = VBool (truth w)))
  | EAnd a b => exists u, means c f vars a x p l u /\
      ((truth u = false /\ v = VBool false) \/ (truth u = true /\ exists w, means c f vars b x p l w /\ v = VBool (truth w)))
  | ERel op a b => exists u w r, means c f vars a x p l u /\ means c f vars b x p l w /\ v = VBool r /\
      (settled op u w -> (r = true <-> compares (reading c f) op u w))
  | EArith op a b => exists u w m n r, means c f vars a x p l u /\ means c f vars b x p l w /\ as_num c f u m /\ as_num c f w n /\
      v = VNum r /\ calculates op m n r
  | ENegate a => exists u n, means c f vars a x p l u /\ as_num c f u n /\ v = VNum (SFopp n)
  | EUnion a b => exists s t r, means c f vars a x p l (VSet s) /\ means c f vars b x p l (VSet t) /\ v = VSet r /\
      forall y, In y (s_nodes r) <-> In y (s_nodes s) \/ In y (s_nodes t)
  | ECall g args => let ms := map (means c f vars) args in
      (exists vs, Forall2 (fun (m : meaning) w => m x p l w) ms vs /\ applies c f g x p l vs v) \/
      (g = Substring /\ exists u, match ms with m :: _ => m x p l u | [] => False end /\ as_text c f u [] /\ v = VStr [])
  | EPath absolute steps => exists s, v = VSet s /\
      gives f p l (map (fun s => match s with
        | AxisStep a s qs => ByAxis a s (map (means c f vars) qs)
        | FilterStep e qs => ByValue (means c f vars e) (map (means c f vars) qs)
        end) steps) [if absolute then (fst x, []) else x] (s_nodes s)
  end.

(** * Where it is promised *)
(** Whether the nodes that an expression gives, from a node that may be an attribute if [from],
    may be attributes. *)
Fixpoint gives_attribute (from : bool) (e : expr) : bool :=
  match e with
  | EVariable _ _ => true
  | EUnion a b => gives_attribute from a || gives_attribute from b
  | EPath absolute steps => fold_left (fun b s => match s with AxisStep a _ _ => to_attribute a b | FilterStep e _ => gives_attribute b e end)
      steps (if absolute then false else from)
  | _ => false
  end.
(** The steps of all the paths in it are allowed (see C40), and an expression is only the first
    step of a path. *)
Fixpoint allowed (t : xtree) (from : bool) (e : expr) : Prop :=
  match e with
  | EOr a b | EAnd a b | ERel _ a b | EArith _ a b | EUnion a b => allowed t from a /\ allowed t from b
  | ENegate a => allowed t from a
  | ECall _ args => fold_right and True (map (allowed t from) args)
  | EPath absolute steps =>
      let go := fix go (from : bool) (l : list (step_of expr)) : Prop :=
        match l with
        | [] => True
        | AxisStep a s qs :: r => step_allowed t from a s /\ fold_right and True (map (allowed t (to_attribute a from)) qs) /\ go (to_attribute a from) r
        | FilterStep _ _ :: _ => False
        end in
      match steps with
      | FilterStep e qs :: r => absolute = false /\ allowed t from e /\ fold_right and True (map (allowed t (gives_attribute from e)) qs) /\ go (gives_attribute from e) r
      | _ => go (if absolute then false else from) steps
      end
  | _ => True
  end.
(** A document whose texts have no NUL in them, whose instructions have no namespace, and in
    which there is no document fragment. *)
Definition proper (t : xtree) : Prop := whole_document t /\ no_nul t /\
  forall p u, In p (order t []) -> subtree t p = Some u -> (t_kind u = Xpi -> i_uri (t_info u) = []) /\ t_kind u <> Xfragment.
(** What a variable may hold: sets as the library makes them, of nodes of the document. *)
Definition usable (ss : sorter) (f : forest) (d : nat) (v : value) : Prop :=
  match v with
  | VSet s => made ss f s /\ NoDup (s_nodes s) /\ forall x, In x (s_nodes s) -> fst x = d /\ In (snd x) (nodes (f_tree f d))
  | _ => True
  end.
(** The same value: sets with the same nodes. *)
Definition same_value (v w : value) : Prop :=
  match v, w with VSet a, VSet b => forall x, In x (s_nodes a) <-> In x (s_nodes b) | _, _ => v = w end.
