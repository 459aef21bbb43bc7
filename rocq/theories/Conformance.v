(** The expectations of the crate's own test-suite (/repo/tests), evaluated in
    the model.  These are TESTS of the model against the documented behaviour of
    the program, not proofs of the properties. *)
From Coq Require Import List NArith Arith Bool Ascii String.
From Verif Require Import Base Escape Dom ParseTree Parse.
Import ListNotations.

Definition is_err {A} (x : outcome A) : bool := match x with Err _ => true | _ => false end.
Definition on {A B} (x : outcome A) (f : A -> B) : option B :=
  match x with Ok a => Some (f a) | _ => None end.
Definition tab : str := [9%N].
Definition root_of (s : str) : outcome elem := do d <- parse_str s; Ok (d_root d).
Definition with_root (d : document) (e : elem) : document := mkDoc (d_declaration d) (d_dtds d) e.

Definition sample1 : str := Eval vm_compute in (lit "<?xml version=""1.0"" encoding=""UTF-8""?>
<!DOCTYPE note [
<!ENTITY ignore ""kiss-xml ignores DOCTYPE stuff"">
<!ENTITY nbsp ""&#xA0;"">
<!ENTITY writer ""Writer: Donald Duck."">
<!ENTITY copyright ""Copyright: W3Schools."">
]>
<note>
	<!-- Note: commented out the following elements:
	<region>somewhere</region>
	<language>ISL-2108</language>
	-->
	<to>Tove</to>
	<from>Jani</from>
	<heading>Reminder</heading>
	<paragraph>Don't forget <b>me</b> this weekend!</paragraph>
	<paragraph> - Jani</paragraph>
	<footer>&writer;&nbsp;&copyright;</footer>
	<signed signer=""Jani Jane""/>
</note>
").
Definition sample2 : str := Eval vm_compute in (lit "<?xml version=""1.0"" encoding=""UTF-8""?>
<root author=""some dude"">
	<!--comment-->
	<mydata>
		<desc>This is my data</desc>
		<properties>
			<property name=""a"" value=""1""/>
			<property name=""b"" value=""2""/>
		</properties>
		<meta>My metadata goes here</meta>
		<other/>
		<other/>
	</mydata>
</root>
").
Definition sample3 : str := Eval vm_compute in (lit "<?xml version=""1.0"" encoding=""UTF-8""?>
<root xmlns=""internal://ns/a"">
	<width>200</width>
	<height>150</height>
</root>
").
Definition sample4 : str := Eval vm_compute in (lit "<?xml version=""1.0"" encoding=""UTF-8""?>
<root xmlns:dim=""internal://ns/b"" xmlns:img=""internal://ns/a"">
	<width>200</width>
	<height>150</height>
	<depth>50</depth>
	<img:width>200</img:width>
	<img:height>150</img:height>
	<dim:width>200</dim:width>
</root>
").
Definition sample5 : str := Eval vm_compute in (lit "<?xml version=""1.0"" encoding=""UTF-8""?>
<img:root xmlns:dim=""internal://ns/b"" xmlns:img=""internal://ns/a"">
	<width>200</width>
	<height>150</height>
	<img:width>200</img:width>
	<img:height>150</img:height>
	<dim:width>200</dim:width>
	<dim:height>150</dim:height>
</img:root>
").
(** tests/api_tests.rs *)
Example t_escape : escape (lit "&<>'""") = (lit "&amp;&lt;&gt;&apos;&quot;").
Proof. vm_compute. reflexivity. Qed.
Example t_unescape : unescape (lit "&amp;&lt;&gt;&apos;&quot;") = Ok (lit "&<>'""").
Proof. vm_compute. reflexivity. Qed.
Example t_text_escape : text_escape (lit "&<>'""") = (lit "&amp;&lt;&gt;'""").
Proof. vm_compute. reflexivity. Qed.
Example t_attr_escape : attribute_escape (lit "&<>'""") = (lit "&amp;&lt;&gt;&apos;&quot;").
Proof. vm_compute. reflexivity. Qed.
Example t_num1 : unescape (lit "&#263c;") = Ok (lit "" ++ [9788%N] ++ lit "").
Proof. vm_compute. reflexivity. Qed.
Example t_num2 : unescape (lit "&#263C;") = Ok (lit "" ++ [9788%N] ++ lit "").
Proof. vm_compute. reflexivity. Qed.
Definition roundtrip (ind s : str) : option bool :=
  on (do d1 <- parse_str s;
      let s1 := doc_to_string_with_indent d1 ind in
      do d2 <- parse_str s1;
      let s2 := doc_to_string_with_indent d2 ind in
      Ok (doc_eqb d1 d2 && str_eqb s1 s2)) (fun b => b).
Example t_round_trip : roundtrip tab sample2 = Some true.
Proof. vm_compute. reflexivity. Qed.
Definition sample1q : str := Eval vm_compute in (lit "<?xml version='1.0' encoding='UTF-8'?>
<!DOCTYPE note [
<!ENTITY ignore 'kiss-xml ignores DOCTYPE stuff'>
<!ENTITY nbsp '&#xA0;'>
<!ENTITY writer 'Writer: Donald Duck.'>
<!ENTITY copyright 'Copyright: W3Schools.'>
]>
<note>
	<!-- Note: commented out the following elements:
	<region>somewhere</region>
	<language>ISL-2108</language>
	-->
	<to>Tove</to>
	<from>Jani</from>
	<heading>Reminder</heading>
	<paragraph>Don't forget <b>me</b> this weekend!</paragraph>
	<paragraph> - Jani</paragraph>
	<footer>&writer;&nbsp;&copyright;</footer>
	<signed signer='Jani Jane'/>
</note>
").
Example t_single_quote1 : on (do a <- root_of sample1; do b <- root_of sample1q; Ok (elem_eqb a b)) (fun b => b) = Some true.
Proof. vm_compute. reflexivity. Qed.
Definition sample2q : str := Eval vm_compute in (lit "<?xml version='1.0' encoding='UTF-8'?>
<root author='some dude'>
	<!--comment-->
	<mydata>
		<desc>This is my data</desc>
		<properties>
			<property name='a' value='1'/>
			<property name='b' value='2'/>
		</properties>
		<meta>My metadata goes here</meta>
		<other/>
		<other/>
	</mydata>
</root>
").
Example t_single_quote2 : on (do a <- root_of sample2; do b <- root_of sample2q; Ok (elem_eqb a b)) (fun b => b) = Some true.
Proof. vm_compute. reflexivity. Qed.
Definition sample3q : str := Eval vm_compute in (lit "<?xml version='1.0' encoding='UTF-8'?>
<root xmlns='internal://ns/a'>
	<width>200</width>
	<height>150</height>
</root>
").
Example t_single_quote3 : on (do a <- root_of sample3; do b <- root_of sample3q; Ok (elem_eqb a b)) (fun b => b) = Some true.
Proof. vm_compute. reflexivity. Qed.
Definition sample4q : str := Eval vm_compute in (lit "<?xml version='1.0' encoding='UTF-8'?>
<root xmlns:dim='internal://ns/b' xmlns:img='internal://ns/a'>
	<width>200</width>
	<height>150</height>
	<depth>50</depth>
	<img:width>200</img:width>
	<img:height>150</img:height>
	<dim:width>200</dim:width>
</root>
").
Example t_single_quote4 : on (do a <- root_of sample4; do b <- root_of sample4q; Ok (elem_eqb a b)) (fun b => b) = Some true.
Proof. vm_compute. reflexivity. Qed.
Definition sample5q : str := Eval vm_compute in (lit "<?xml version='1.0' encoding='UTF-8'?>
<img:root xmlns:dim='internal://ns/b' xmlns:img='internal://ns/a'>
	<width>200</width>
	<height>150</height>
	<img:width>200</img:width>
	<img:height>150</img:height>
	<dim:width>200</dim:width>
	<dim:height>150</dim:height>
</img:root>
").
Example t_single_quote5 : on (do a <- root_of sample5; do b <- root_of sample5q; Ok (elem_eqb a b)) (fun b => b) = Some true.
Proof. vm_compute. reflexivity. Qed.
Example t_dom_parsing_1 : on (parse_str sample1) (fun d => (name (d_root d), match d_declaration d with Some _ => true | None => false end, List.length (d_dtds d), List.length (child_elements (d_root d)), List.length (children (d_root d)))) = Some (lit "note", true, 1, 7, 8).
Proof. vm_compute. reflexivity. Qed.
Example t_dom_parsing_2 : on (root_of sample1) (fun r => (List.length (filter is_element (children r)), List.length (filter is_comment (children r)), List.length (filter is_text (children r)))) = Some (7, 1, 0).
Proof. vm_compute. reflexivity. Qed.
Example t_dom_parsing_3 : on (do r <- root_of sample1; first_element_by_name r (lit "to")) elem_text = Some (lit "Tove").
Proof. vm_compute. reflexivity. Qed.
Example t_dom_parsing_4 : on (do r <- root_of sample1; first_element_by_name r (lit "paragraph")) (fun p => (elem_text p, map node_text (firstn 1 (children p)), List.length (children p))) = Some (lit "Don't forget me this weekend!", [lit "Don't forget "], 3).
Proof. vm_compute. reflexivity. Qed.
Example t_dom_parsing_5 : on (root_of sample1) (fun r => map elem_text (elements_by_name r (lit "paragraph"))) = Some [lit "Don't forget me this weekend!"; lit " - Jani"].
Proof. vm_compute. reflexivity. Qed.
Example t_dom_parsing_6 : on (do r <- root_of sample1; first_element_by_name r (lit "signed")) (fun p => (get_attr p (lit "signer"), get_attr p (lit "nonexistant"))) = Some (Some (lit "Jani Jane"), None).
Proof. vm_compute. reflexivity. Qed.
Example t_dom_parsing_7 : on (root_of sample1) (fun r => (List.length (search r (fun _ => true)), List.length (search r is_text), is_err (first_element_by_name r (lit "b")))) = Some (17, 8, true).
Proof. vm_compute. reflexivity. Qed.
Example t_dom_parsing_8 : on (do r <- root_of sample1; search_elements_by_name r (lit "b")) (map elem_text) = Some [lit "me"].
Proof. vm_compute. reflexivity. Qed.
Example t_dom_parsing_9 : on (do r <- root_of sample1; search_text r (contains (lit "weekend"))) (fun l => l) = Some [lit " this weekend!"].
Proof. vm_compute. reflexivity. Qed.
Example t_dom_parsing_10 : on (do r <- root_of sample1; do a <- search_comments r (contains (lit "Note:")); do b <- search_comments r (contains (lit "this does not exist")); Ok (List.length a, List.length b)) (fun l => l) = Some (1, 0).
Proof. vm_compute. reflexivity. Qed.
Definition mk (n : str) (a : amap) := new_with_attributes n a.
Definition upd2 (a b : str) (f : elem -> outcome elem) (e : elem) : outcome elem :=
  first_element_by_name_mut e a (fun e => first_element_by_name_mut e b f).
Example t_modify_dom : on (do d <- parse_str sample2;
  let r := snd (set_attr (d_root d) (lit "author") (lit "some dude")) in
  do r <- upd2 (lit "mydata") (lit "properties") (fun e => do p <- mk (lit "property") [(lit "name", lit "c"); (lit "value", lit "3")]; append e (NElem p)) r;
  do r <- upd2 (lit "mydata") (lit "properties") (fun e => do p <- mk (lit "property") [(lit "value", lit "0"); (lit "name", lit "z")]; insert e 0 (NElem p)) r;
  do r <- first_element_by_name_mut r (lit "mydata") (fun e => do c <- comment_new (lit "inserted comment"); insert e 1 (NComment c));
  do r <- upd2 (lit "mydata") (lit "other") (fun e => append e (NText (lit "inserted text"))) r;
  Ok (with_root d r)) (fun d => doc_to_string_with_indent d tab) = Some (lit "<?xml version=""1.0"" encoding=""UTF-8""?>
<root author=""some dude"">
	<!--comment-->
	<mydata>
		<desc>This is my data</desc>
		<!--inserted comment-->
		<properties>
			<property name=""z"" value=""0""/>
			<property name=""a"" value=""1""/>
			<property name=""b"" value=""2""/>
			<property name=""c"" value=""3""/>
		</properties>
		<meta>My metadata goes here</meta>
		<other>inserted text</other>
		<other/>
	</mydata>
</root>
").
Proof. vm_compute. reflexivity. Qed.
Example t_remove_1 : on (do d <- parse_str sample2;
  let r := snd (remove_attr (d_root d) (lit "author")) in
  do r <- first_element_by_name_mut r (lit "mydata") (fun e => do x <- remove e 0; Ok (snd x));
  do r <- remove_all (fun n => is_text n && contains (lit "My metadata") (node_text n)) r;
  do r <- first_element_by_name_mut (fst r) (lit "mydata") (fun e => do x <- remove_elements_by_name e (lit "other"); Ok (fst x));
  do r <- upd2 (lit "mydata") (lit "properties") (fun e => do x <- remove_element e 1; Ok (snd x)) r;
  Ok (with_root d r)) (fun d => doc_to_string_with_indent d tab) = Some (lit "<?xml version=""1.0"" encoding=""UTF-8""?>
<root>
	<!--comment-->
	<mydata>
		<properties>
			<property name=""a"" value=""1""/>
		</properties>
		<meta/>
	</mydata>
</root>
").
Proof. vm_compute. reflexivity. Qed.
Example t_remove_2 : on (do d <- parse_str sample2;
  do r <- first_element_by_name_mut (d_root d) (lit "mydata") (fun e => do x <- remove_elements e (fun c => str_eqb (name c) (lit "meta")); Ok (fst x));
  do r <- first_element_by_name_mut r (lit "mydata") (fun e => do x <- remove_elements e (fun c => str_eqb (name c) (lit "other")); Ok (fst x));
  Ok (with_root d r)) (fun d => doc_to_string_with_indent d tab) = Some (lit "<?xml version=""1.0"" encoding=""UTF-8""?>
<root author=""some dude"">
	<!--comment-->
	<mydata>
		<desc>This is my data</desc>
		<properties>
			<property name=""a"" value=""1""/>
			<property name=""b"" value=""2""/>
		</properties>
	</mydata>
</root>
").
Proof. vm_compute. reflexivity. Qed.
Example t_remove_3 : on (do d <- parse_str sample2;
  do r <- upd2 (lit "mydata") (lit "properties") (fun e => do x <- remove_elements_by_name e (lit "property"); Ok (fst x)) (d_root d);
  do r <- remove_all (fun n => is_comment n || match n with NElem c => str_eqb (name c) (lit "other") | _ => false end) r;
  Ok (with_root d (fst r))) (fun d => doc_to_string_with_indent d tab) = Some (lit "<?xml version=""1.0"" encoding=""UTF-8""?>
<root author=""some dude"">
	<mydata>
		<desc>This is my data</desc>
		<properties/>
		<meta>My metadata goes here</meta>
	</mydata>
</root>
").
Proof. vm_compute. reflexivity. Qed.
Example t_dom_to_string : on (parse_str sample2) (fun d => doc_to_string_with_indent d tab) = Some sample2.
Proof. vm_compute. reflexivity. Qed.
Example t_namespaces_1 : on (root_of sample3) (fun r => (namespace r, namespace_prefix r, map namespace (child_elements r), List.length (elements_by_namespace r (Some (lit "internal://ns/a"))))) = Some (Some (lit "internal://ns/a"), None, [Some (lit "internal://ns/a"); Some (lit "internal://ns/a")], 2).
Proof. vm_compute. reflexivity. Qed.
Example t_namespaces_1b : on (do r <- root_of sample3; do n <- element_new (lit "depth") (Some (lit "50")) None None None None; do r <- append r (NElem n); first_element_by_name r (lit "depth")) (fun c => (namespace c, namespace_prefix c)) = Some (Some (lit "internal://ns/a"), None).
Proof. vm_compute. reflexivity. Qed.
Example t_namespaces_2 : on (root_of sample4) (fun r => (namespace r, List.length (elements_by_namespace r None), List.length (elements_by_namespace_prefix r (Some (lit "img"))), List.length (elements_by_namespace_prefix r (Some (lit "dim"))), List.length (elements_by_namespace r (Some (lit "internal://ns/a"))), List.length (elements_by_namespace r (Some (lit "internal://ns/b"))))) = Some (None, 3, 2, 1, 2, 1).
Proof. vm_compute. reflexivity. Qed.
Example t_namespaces_2b : on (parse_str sample4) (fun d => doc_to_string_with_indent d tab) = Some sample4.
Proof. vm_compute. reflexivity. Qed.
Example t_namespaces_3 : on (root_of sample5) (fun r => (namespace_prefix r, List.length (elements_by_namespace_prefix r (Some (lit "img"))), List.length (elements_by_namespace_prefix r None))) = Some (Some (lit "img"), 2, 2).
Proof. vm_compute. reflexivity. Qed.
(** tests/issues.rs *)
Example t_issue_12 : on (parse_str (lit "<root beta=""1"" alpha=""2"" xmlns:b=""internal://b/b"" xmlns=""internal://a/b"" xmlns:a=""internal://a/a""/>")) (fun d => trim (doc_to_string d)) = Some (lit "<root xmlns=""internal://a/b"" xmlns:a=""internal://a/a"" xmlns:b=""internal://b/b"" alpha=""2"" beta=""1""/>").
Proof. vm_compute. reflexivity. Qed.
Example t_issue_17_parse : on (parse_str (lit "<?xml version=""1.0"" encoding=""UTF-8""?>
<root>
	<!--comment-->
	<properties>
		<property name=""a"" value=""1""/>
	</properties>
	<mydata><![CDATA[<html><body>This is not<br>XML</body></html>]]></mydata>
</root>
")) (fun d => doc_to_string_with_indent d tab) = Some (lit "<?xml version=""1.0"" encoding=""UTF-8""?>
<root>
	<!--comment-->
	<properties>
		<property name=""a"" value=""1""/>
	</properties>
	<mydata><![CDATA[<html><body>This is not<br>XML</body></html>]]></mydata>
</root>
").
Proof. vm_compute. reflexivity. Qed.
Example t_issue_17_parse2 : on (do r <- root_of (lit "<?xml version=""1.0"" encoding=""UTF-8""?>
<root>
	<!--comment-->
	<properties>
		<property name=""a"" value=""1""/>
	</properties>
	<mydata><![CDATA[<html><body>This is not<br>XML</body></html>]]></mydata>
</root>
"); first_element_by_name r (lit "mydata")) children = Some [NCData (lit "<html><body>This is not<br>XML</body></html>")].
Proof. vm_compute. reflexivity. Qed.
Example t_issue_17_modify : on (do d <- parse_str (lit "<?xml version=""1.0"" encoding=""UTF-8""?>
<root>
	<!--comment-->
	<properties>
		<property name=""a"" value=""1""/>
	</properties>
	<mydata/>
</root>
"); do r <- first_element_by_name_mut (d_root d) (lit "mydata") (fun e => do c <- cdata_new (lit "<html><body>This is not<br>XML</body></html>"); append e (NCData c)); Ok (with_root d r)) (fun d => doc_to_string_with_indent d tab) = Some (lit "<?xml version=""1.0"" encoding=""UTF-8""?>
<root>
	<!--comment-->
	<properties>
		<property name=""a"" value=""1""/>
	</properties>
	<mydata><![CDATA[<html><body>This is not<br>XML</body></html>]]></mydata>
</root>
").
Proof. vm_compute. reflexivity. Qed.
Example t_issue_21 : is_err (parse_str (lit "
<property =
<property />
")) = true.
Proof. vm_compute. reflexivity. Qed.
Example t_issue_26 : is_err (do r <- root_of (lit "
<properties />
"); Ok tt) = false /\ is_err (do r <- root_of (lit "
<properties />
"); remove_element r 0) = true.
Proof. vm_compute. split; reflexivity. Qed.
Example t_issue_28 : is_err (parse_str (lit "<ot Xttr=t Xttr""valud</ro>o"">")) = true.
Proof. vm_compute. reflexivity. Qed.
Example t_issue_29 : is_err (parse_str (lit "<root><!--></root>")) = true.
Proof. vm_compute. reflexivity. Qed.
Example t_issue_34 : on (parse_str (lit "<ProductName>&lt;AppName&gt;</ProductName>
")) doc_to_string = Some (lit "<ProductName>&lt;AppName&gt;</ProductName>
").
Proof. vm_compute. reflexivity. Qed.
Example t_issue_33 : on (parse_str (lit "<root a=""1"" b = ""2"" c= ""3"" d =""4"" x=""don't be fooled by ="" y="" in value""/>")) (fun d => trim (doc_to_string d)) = Some (lit "<root a=""1"" b=""2"" c=""3"" d=""4"" x=""don&apos;t be fooled by ="" y="" in value""/>").
Proof. vm_compute. reflexivity. Qed.
(** tests/misc.rs *)
Example t_dtd_1 : is_err (dtd_from_string (lit "note1")) = true.
Proof. vm_compute. reflexivity. Qed.
Example t_dtd_2 : is_err (dtd_from_string (lit "<!DOCTYPE note1 >")) = false.
Proof. vm_compute. reflexivity. Qed.
Example t_decl : on (new_from_name (lit "root")) (fun e => (starts_with (lit "<?xml version=""1.0"" encoding=""UTF-8""?>") (doc_to_string (doc_new e)), starts_with (lit "<root") (doc_to_string (set_declaration (doc_new e) None)))) = Some (true, true).
Proof. vm_compute. reflexivity. Qed.
(** tests/escaping_tests.rs *)
Example t_content_escapes : on (parse_str (lit "<?xml version=""1.0"" encoding=""UTF-8""?>
<root>&lt;&gt;&amp;&quot;&apos;</root>
")) (fun d => (elem_text (d_root d), doc_to_string d)) = Some ((lit "<>&""'"), (lit "<?xml version=""1.0"" encoding=""UTF-8""?>
<root>&lt;&gt;&amp;""'</root>
")).
Proof. vm_compute. reflexivity. Qed.
Example t_attribute_escapes : on (parse_str (lit "<?xml version=""1.0"" encoding=""UTF-8""?>
<root a=""&lt;&gt;&amp;&quot;&apos;""/>
")) (fun d => (get_attr (d_root d) (lit "a"), doc_to_string d)) = Some (Some (lit "<>&""'"), (lit "<?xml version=""1.0"" encoding=""UTF-8""?>
<root a=""&lt;&gt;&amp;&quot;&apos;""/>
")).
Proof. vm_compute. reflexivity. Qed.
Example t_comment_escapes : on (parse_str (lit "<?xml version=""1.0"" encoding=""UTF-8""?>
<root><!-- &lt;&gt;&amp;&quot;&apos; --></root>
")) (fun d => (children (d_root d), doc_to_string d)) = Some ([NComment (lit " &lt;&gt;&amp;&quot;&apos; ")], (lit "<?xml version=""1.0"" encoding=""UTF-8""?>
<root><!-- &lt;&gt;&amp;&quot;&apos; --></root>
")).
Proof. vm_compute. reflexivity. Qed.
Example t_cdata_escapes : on (parse_str (lit "<?xml version=""1.0"" encoding=""UTF-8""?>
<root><![CDATA[<greeting>&lt;&gt;&amp;&quot;&apos;</greeting>]]></root>
")) (fun d => (children (d_root d), doc_to_string d)) = Some ([NCData (lit "<greeting>&lt;&gt;&amp;&quot;&apos;</greeting>")], (lit "<?xml version=""1.0"" encoding=""UTF-8""?>
<root><![CDATA[<greeting>&lt;&gt;&amp;&quot;&apos;</greeting>]]></root>
")).
Proof. vm_compute. reflexivity. Qed.
(** tests/simple.rs *)
Example t_strings : on (do s <- new_with_text (lit "speak") (lit "bark!"); do e1 <- new_with_children (lit "tree") [NElem s];
  do e2 <- new_with_attributes_and_text (lit "bob") [(lit "a", lit "b")] (lit "I'm Bob.");
  do g <- new_with_text (lit "greeting") (lit "hi there!"); do e2 <- append e2 (NElem g);
  do e1 <- append e1 (NElem e2); do c <- comment_new (lit "no comment"); do e1 <- append e1 (NComment c);
  do s2 <- new_with_children (lit "speak") [NText (lit "bark! bark!")]; append e1 (NElem s2)) (fun e => elem_to_string_with_indent e default_indent) = Some (lit "<tree>
  <speak>bark!</speak>
  <bob a=""b"">I'm Bob.<greeting>hi there!</greeting></bob>
  <!--no comment-->
  <speak>bark! bark!</speak>
</tree>").
Proof. vm_compute. reflexivity. Qed.
Example t_strings_inline : on (do e1 <- new_with_text (lit "tree") (lit "bark!");
  do e2 <- new_with_attributes_and_text (lit "bob") [(lit "a", lit "b")] (lit "I'm Bob.");
  do g <- new_with_text (lit "greeting") (lit "hi there!"); do e2 <- append e2 (NElem g);
  do e1 <- append e1 (NElem e2); do c <- comment_new (lit "no comment"); do e1 <- append e1 (NComment c);
  append e1 (NText (lit "bark! bark!"))) (fun e => elem_to_string_with_indent e default_indent) = Some (lit "<tree>bark!<bob a=""b"">I'm Bob.<greeting>hi there!</greeting></bob><!--no comment-->bark! bark!</tree>").
Proof. vm_compute. reflexivity. Qed.
Example t_leading_trailing : on (do r <- root_of (lit "<xhtml>
  <body>Linda <b>ran</b> to the store <i>to buy " ++ [9788%N] ++ lit " cookies</i> for the party</body>
</xhtml>
	"); first_element_by_name r (lit "body")) (fun b => map node_text (children b)) = Some [lit "Linda "; lit "ran"; lit " to the store "; (lit "to buy " ++ [9788%N] ++ lit " cookies"); lit " for the party"].
Proof. vm_compute. reflexivity. Qed.
Example t_leading_trailing_rt : roundtrip default_indent (lit "<xhtml>
  <body>Linda <b>ran</b> to the store <i>to buy " ++ [9788%N] ++ lit " cookies</i> for the party</body>
</xhtml>
	") = Some true.
Proof. vm_compute. reflexivity. Qed.
(** tests/no_panic_tests.rs and tests/failure_handling.rs *)
Definition fully_featured : str := Eval vm_compute in (lit "<?xml version=""1.0"" encoding=""UTF-8"" standalone=""no""?>
<!-- This comment is not allowed and will be ignored -->
<!ENTITY nbsp ""&#xA0;"">
<!ENTITY copyright ""Copyright: Public domain."">
<svg width=""100"" height=""100"" viewBox=""0 0 100 100"" xmlns=""http://www.w3.org/2000/svg"" xmlns:doc=""internal://ns/a"">
<!-- Blue triangle SVG graphic -->
  <g id=""layer1"">
    <path style=""fill:#00a6c2;fill-opacity:1;stroke:none""
       d=""M 3,58 57,11 42,64 Z"" id=""triangle"" />
    <doc:note>blue triangle</doc:note>
  </g>
</svg>").
Definition no_panic (s : str) : bool := match parse_str s with Ok _ | Err _ => true | _ => false end.
Example t_fully_featured : on (parse_str fully_featured) (fun _ => true) = Some true.
Proof. vm_compute. reflexivity. Qed.
Example t_truncate : forallb (fun i => no_panic (skipn i fully_featured) && no_panic (firstn i fully_featured)) (seq 0 (List.length fully_featured)) = true.
Proof. vm_compute. reflexivity. Qed.
Example t_del_char : forallb (fun i => no_panic (firstn i fully_featured ++ skipn (S i) fully_featured)) (seq 0 (List.length fully_featured - 1)) = true.
Proof. vm_compute. reflexivity. Qed.
Example t_unclosed_root : is_err (parse_str (lit "<?xml version=""1.0"" encoding=""UTF-8""?>
<config>
	<name>My Settings</name>
	<sound>
		<property name=""volume"" value=""11"" />
		<property name=""mixer"" value=""standard"" />
	</sound>
<config>
")) = true.
Proof. vm_compute. reflexivity. Qed.
