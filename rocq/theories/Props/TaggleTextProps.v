(** C56 text through the HTML parser, C57 its document types, C58 its comments and processing
    instructions. *)
From Coq Require Import String.
From Verif.Model Require Import Base Attrs XSort Taggle HtmlScanner.
From Verif.Spec Require Import TaggleSpec.
From Verif.Proof Require Import HtmlScannerProof TaggleQuiet TaggleText TaggleDoctype.
From Verif.Props Require Import FilterProps TaggleProps.
From Coq Require Import List Lia.
Import ListNotations.
Open Scope Z_scope.

(** * C56 *)

(** Input that is text and references to ASCII characters, and does not begin with white space,
    comes through: the text reported is the characters and the values of the references, however
    it is cut into events. *)
Theorem C56_text_partial : forall F full ps, Forall text_piece ps -> match ps with [] => True | p :: _ => ~ In (value p) [9; 10; 32] end ->
  exists l, parse F full (flat_map source ps) = Val l /\ text_of l = map value ps.
Proof. exact parse_text. Qed.
Print Assumptions C56_text_partial.
Definition some_text : list piece :=
  [PChar 97; PReturn; PRef (lit "amp") 38; PRef (lit "#60") 60; PChar 32; PRef (lit "#x3C") 60; PChar 233; PRef (lit "#0062") 62].
Example C56_text_example : Forall text_piece some_text /\ ~ In (value (PChar 97)) [9; 10; 32] /\
  flat_map source some_text = lit "a" ++ [13; 10] ++ lit "&amp;&#60; &#x3C;" ++ [233] ++ lit "&#0062;".
Proof.
  split; [|split; [cbn; intuition discriminate|vm_compute; reflexivity]].
  unfold some_text. repeat (apply Forall_cons); try apply Forall_nil; cbn [text_piece]; try exact Logic.I; try (left; lia).
  - split; [lia|]. right. right. left. auto.
  - split; [lia|]. do 4 right. left. exists (lit "60"). split; [reflexivity|].
    apply (numeral_more 10 [54] 6 48 0); [apply numeral_one|]; split; try (left; cbn); lia.
  - split; [lia|]. do 5 right. exists 120, (lit "3C"). split; [reflexivity|]. split; [left; reflexivity|].
    apply (numeral_more 16 [51] 3 67 12); [apply numeral_one; split; [|left]; lia|]. split; [lia|]. right. right. lia.
  - split; [lia|]. do 4 right. left. exists (lit "0062"). split; [reflexivity|].
    apply (numeral_more 10 [48; 48; 54] 6 50 2); [|split; [|left]; lia]. apply (numeral_more 10 [48; 48] 0 54 6); [|split; [|left]; lia].
    apply (numeral_more 10 [48] 0 48 0); [|split; [|left]; lia]. apply numeral_one. split; [|left]; lia.
Qed.
(** A named reference to another character is lost. *)
Theorem C56_named_refuted : exists l, parse default_features never (lit "a&nbsp;b") = Val l /\ text_of l = lit "ab".
Proof. eexists. split; [vm_compute; reflexivity|vm_compute; reflexivity]. Qed.
Print Assumptions C56_named_refuted.
(** A numeric reference gives only the low byte of its value, and a value that ends in a zero
    byte loses the text behind it. *)
Theorem C56_numeric_refuted : exists l,
  parse default_features never (lit "a&#256;bc<i>d</i>&#321;&#8364;") = Val l /\ text_of l = [97; 100; 65; 172].
Proof. eexists. split; vm_compute; reflexivity. Qed.
Print Assumptions C56_numeric_refuted.
(** So that a control character, which XML does not allow, can be reported. *)
Theorem C56_control_refuted : exists l, parse default_features never (lit "&#257;") = Val l /\ text_of l = [1].
Proof. eexists. split; vm_compute; reflexivity. Qed.
Print Assumptions C56_control_refuted.
(** The result depends on the capacity of a buffer: white space at the beginning is kept when it
    is flushed together with the text behind it, and lost when the buffer was full before. *)
Theorem C56_capacity_refuted : exists s full, exists l l', parse default_features never s = Val l /\ parse default_features full s = Val l' /\
  text_of l = s /\ text_of l' <> s.
Proof.
  exists (lit "  x"), (fun f => Nat.eqb f 14). eexists. eexists. split; [vm_compute; reflexivity|]. split; [vm_compute; reflexivity|].
  split; [vm_compute; reflexivity|vm_compute; discriminate].
Qed.
Print Assumptions C56_capacity_refuted.

(** * C57 *)

(** A document type with only a name, at the beginning, is reported with that name, before every
    element, whatever follows. *)
Theorem C57_name_partial : forall F full w1 n w2 r, blanks w1 -> w1 <> [] -> Forall word_char n -> n <> [] -> blanks w2 -> exists l,
  parse F full (lit "<!DOCTYPE" ++ w1 ++ n ++ w2 ++ lit ">" ++ r) =
  Val ([HStartDocument; HLocator; HStartMapping (lit "html") (lit "http://www.w3.org/1999/xhtml"); HStartDTD n [] []; HEndDTD] ++ l).
Proof. exact parse_doctype. Qed.
Print Assumptions C57_name_partial.
Example C57_name_example : blanks [32; 10] /\ [32; 10] <> [] /\ Forall word_char (lit "html") /\ lit "html" <> [] /\ blanks [] /\
  lit "<!DOCTYPE" ++ [32; 10] ++ lit "html" ++ [] ++ lit ">" ++ lit "<p>x" = lit "<!DOCTYPE" ++ [32; 10] ++ lit "html><p>x".
Proof.
  split; [repeat (apply Forall_cons; [auto|]); apply Forall_nil|]. split; [discriminate|]. split; [|split; [discriminate|split; [constructor|reflexivity]]].
  repeat (apply Forall_cons; [split; [cbn; lia|repeat split; discriminate]|]). apply Forall_nil.
Qed.
(** At most one document type is reported. *)
Theorem C57_once : forall F full s, Forall (fun c => 0 <= c < 256) s -> exists l, parse F full s = Val l /\ (doctypes l <= 1)%nat.
Proof.
  intros F full s B. destruct (parse_markup false F full s B) as (g & E & _ & D). exists (tg_out g). unfold parse. rewrite E. split; [reflexivity|].
  rewrite PeanoNat.Nat.add_0_r in D. exact D.
Qed.
Print Assumptions C57_once.
Example C57_once_example : Forall (fun c => 0 <= c < 256) (lit "<!DOCTYPE a><!DOCTYPE b>") /\
  exists l, parse default_features never (lit "<!DOCTYPE a><!DOCTYPE b>") = Val l /\ doctypes l = 1%nat.
Proof.
  split; [repeat (apply Forall_cons; [cbn; lia|]); apply Forall_nil|]. eexists. split; vm_compute; reflexivity.
Qed.
(** A parser that has seen one reports none in its later parses. *)
Theorem C57_again_refuted : forall F full s, Forall (fun c => 0 <= c < 256) s ->
  exists g, parse_again true F full s = Val g /\ doctypes (tg_out g) = 0%nat.
Proof. intros F full s B. destruct (parse_markup true F full s B) as (g & E & _ & D). exists g. split; [exact E|]. lia. Qed.
Print Assumptions C57_again_refuted.
(** When more follows the name, the words behind it become part of it, and the identifiers are
    not reported. *)
Theorem C57_system_refuted : exists a b,
  parse default_features never (lit "<!DOCTYPE html SYSTEM ""a.dtd"">") = Val (a ++ HStartDTD (lit "html SYSTEM ") [] [] :: HEndDTD :: b).
Proof. exists [HStartDocument; HLocator; HStartMapping (lit "html") (lit "http://www.w3.org/1999/xhtml")]. eexists. vm_compute. reflexivity. Qed.
Print Assumptions C57_system_refuted.
(** The keyword is matched with its case, which in HTML does not matter. *)
Theorem C57_case_refuted : exists l, parse default_features never (lit "<!doctype html>") = Val l /\ doctypes l = 0%nat.
Proof. eexists. split; vm_compute; reflexivity. Qed.
Print Assumptions C57_case_refuted.

(** * C58 *)

(** For any input, every comment and every processing instruction reported can be written in XML. *)
Theorem C58_markup : forall F full s, Forall (fun c => 0 <= c < 256) s -> exists l, parse F full s = Val l /\ Forall markup_event l.
Proof.
  intros F full s B. destruct (parse_markup false F full s B) as (g & E & M & _). exists (tg_out g). unfold parse. rewrite E. split; [reflexivity|exact M].
Qed.
Print Assumptions C58_markup.
Example C58_markup_example : Forall (fun c => 0 <= c < 256) (lit "<!-- a -- b ---><?1:x y?><?xml z?>") /\
  exists a b, parse default_features never (lit "<!-- a -- b ---><?1:x y?><?xml z?>") =
    Val (a ++ [HComment (lit " a - - b - "); HInstruction (lit "_1_x") (lit "y")] ++ b).
Proof.
  split; [repeat (apply Forall_cons; [cbn; lia|]); apply Forall_nil|].
  exists [HStartDocument; HLocator; HStartMapping (lit "html") (lit "http://www.w3.org/1999/xhtml")]. eexists. vm_compute. reflexivity.
Qed.
(** But what comes before a comment can be in it. *)
Theorem C58_before_refuted : exists a b, parse default_features never (lit "<<!--x-->") = Val (a ++ HComment (lit "<x") :: b).
Proof. exists [HStartDocument; HLocator; HStartMapping (lit "html") (lit "http://www.w3.org/1999/xhtml")]. eexists. vm_compute. reflexivity. Qed.
Print Assumptions C58_before_refuted.
