(** Declarations of elements and attributes: XML 1.0, productions 45 to 51 and 60. *)
From Coq Require Import List ZArith Bool.
Import ListNotations.
Open Scope Z_scope.

Inductive often := One | Maybe | Any_number | Some_.
Inductive particle :=
  | PName (n : list Z) (o : often)
  | PChoice (l : list particle) (o : often)
  | PSeq (l : list particle) (o : often).
Inductive contentspec :=
  | Empty | Any
  | Mixed (names : list (list Z))
  | Children (p : particle).

(** ** Reading a content model (written without spaces) *)
(** Marks: ( ) , | ? * + # *)
Definition is_mark (c : Z) : bool :=
  (c =? 40) || (c =? 41) || (c =? 44) || (c =? 124) || (c =? 63) || (c =? 42) || (c =? 43) || (c =? 35).
Fixpoint read_name (s : list Z) : list Z * list Z :=
  match s with
  | [] => ([], [])
  | c :: r => if is_mark c then ([], s) else let (n, k) := read_name r in (c :: n, k)
  end.
Definition read_often (s : list Z) : often * list Z :=
  match s with
  | 63 :: r => (Maybe, r)
  | 42 :: r => (Any_number, r)
  | 43 :: r => (Some_, r)
  | _ => (One, s)
  end.

(** [read_more sep] reads the rest of a group, [read_cp] a content particle.  [fuel] bounds
    the steps; the length of the text is always enough. *)
Fixpoint read_cp (fuel : nat) (s : list Z) : option (particle * list Z) :=
  match fuel with
  | O => None
  | S f =>
      match s with
      | 40 :: r =>
          match read_cp f r with
          | Some (p, r1) =>
              let sep := match r1 with 124 :: _ => 124 | _ => 44 end in
              match read_more f sep r1 with
              | Some (l, r2) =>
                  let (o, r3) := read_often r2 in
                  Some (if sep =? 124 then PChoice (p :: l) o else PSeq (p :: l) o, r3)
              | None => None
              end
          | None => None
          end
      | _ =>
          match read_name s with
          | ([], _) => None
          | (n, r1) => let (o, r2) := read_often r1 in Some (PName n o, r2)
          end
      end
  end
with read_more (fuel : nat) (sep : Z) (s : list Z) : option (list particle * list Z) :=
  match fuel with
  | O => None
  | S f =>
      match s with
      | 41 :: r => Some ([], r)
      | c :: r =>
          if c =? sep then
            match read_cp f r with
            | Some (p, r1) =>
                match read_more f sep r1 with
                | Some (l, r2) => Some (p :: l, r2)
                | None => None
                end
            | None => None
            end
          else None
      | [] => None
      end
  end.

Definition starts (p s : list Z) : option (list Z) :=
  if list_eq_dec Z.eq_dec (firstn (length p) s) p then Some (skipn (length p) s) else None.
(** (| Name)*, then ")". *)
Fixpoint read_names (fuel : nat) (s : list Z) : option (list (list Z) * list Z) :=
  match fuel with
  | O => None
  | S f =>
      match s with
      | 41 :: r => Some ([], r)
      | 124 :: r =>
          match read_name r with
          | ([], _) => None
          | (n, r1) => match read_names f r1 with
                       | Some (l, r2) => Some (n :: l, r2)
                       | None => None
                       end
          end
      | _ => None
      end
  end.
Definition read_contentspec (s : list Z) : option contentspec :=
  if list_eq_dec Z.eq_dec s [69; 77; 80; 84; 89] then Some Empty
  else if list_eq_dec Z.eq_dec s [65; 78; 89] then Some Any
  else match starts [40; 35; 80; 67; 68; 65; 84; 65] s with
       | Some r =>
           match read_names (S (length r)) r with
           | Some ([], ([] | [42])) => Some (Mixed [])
           | Some (l, [42]) => Some (Mixed l)
           | _ => None
           end
       | None =>
           match read_cp (S (length s)) s with
           | Some (PName _ _, _) => None
           | Some (p, []) => Some (Children p)
           | _ => None
           end
       end.

(** A name is not empty and has none of the marks; a choice has two alternatives or more. *)
Definition proper_name (n : list Z) : Prop := n <> [] /\ Forall (fun c => is_mark c = false) n.
Fixpoint proper (p : particle) : Prop :=
  match p with
  | PName n _ => proper_name n
  | PChoice l _ => (2 <= length l)%nat
                   /\ (fix each l := match l with [] => True | k :: r => proper k /\ each r end) l
  | PSeq l _ => l <> []
                /\ (fix each l := match l with [] => True | k :: r => proper k /\ each r end) l
  end.
Definition proper_spec (c : contentspec) : Prop :=
  match c with
  | Empty | Any => True
  | Mixed l => Forall proper_name l
  | Children (PName _ _) => False
  | Children p => proper p
  end.

(** ** Attribute declarations: the modes, as SAX names them; none for a plain default *)
Inductive mode := Required | Implied | Fixed (v : list Z) | Default (v : list Z).
Definition sax_mode (m : mode) : list Z :=
  match m with
  | Required => [35; 82; 69; 81; 85; 73; 82; 69; 68]
  | Implied => [35; 73; 77; 80; 76; 73; 69; 68]
  | Fixed _ => [35; 70; 73; 88; 69; 68]
  | Default _ => []
  end.
