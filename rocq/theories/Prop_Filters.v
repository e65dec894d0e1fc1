(** * C06-C13: filters.  Only statements; proofs are in FilterFacts.v. *)
From Verif Require Import Base Utf8 Utf8Facts Escape Filters FilterSpec FilterFacts.
Local Open Scope N_scope.

Definition shown (ps : list str) : disp := {| pieces := ps; fin := true |}.

(** C06.  For any value written in any valid UTF-8 pieces, [truncate(n)] does not panic and shows the shortest prefix of
    whole characters of at least [n] bytes, followed by three dots iff something was cut; errors of the value are kept. *)
Theorem C06_truncate : forall d n, Forall valid (pieces d) ->
  exists cs d', truncate_fmt d n = Some d' /\ text d = encode cs /\ forallb scalar cs = true
     /\ is_truncated cs n (text d') /\ fin d' = fin d.
Proof. exact truncate_correct. Qed.
Print Assumptions C06_truncate.
Example C06_example :
  Forall valid [lit "ab"; encode [233; 99]; lit "d"] /\
  option_map text (truncate_fmt (shown [lit "ab"; encode [233; 99]; lit "d"]) 3) = Some (lit "ab" ++ [195; 169] ++ lit "...") /\
  option_map text (truncate_fmt (shown [lit "ab"; encode [233]]) 3) = Some (lit "ab" ++ [195; 169]).
Proof.
  split; [|split; vm_compute; reflexivity].
  repeat constructor; [exists (lit "ab")|exists [233; 99]|exists (lit "d")]; split; reflexivity.
Qed.

(** C07. *)
Theorem C07_indent : forall s w, w < 10000 -> N.of_nat (byte_len s) < 10000 -> indent s w = indent_spec (N.to_nat w) s.
Proof. exact indent_correct. Qed.
Print Assumptions C07_indent.
Theorem C07_indent_limit : forall s w, 10000 <= w \/ 10000 <= N.of_nat (byte_len s) -> indent s w = s.
Proof. exact indent_limit. Qed.
Print Assumptions C07_indent_limit.
Example C07_example : indent (lit "a" ++ [10] ++ lit "b" ++ [10]) 2 = lit "a" ++ [10] ++ lit "  b" ++ [10].
Proof. vm_compute. reflexivity. Qed.

(** C08.  [is_trimmed] determines the output, so this fixes it for every chunking. *)
Theorem C08_trim : forall d, fin d = true -> exists out, trim d = Some out /\ is_trimmed (text d) out.
Proof. exact trim_correct. Qed.
Print Assumptions C08_trim.
Theorem C08_trimmed_unique : forall s o1 o2, is_trimmed s o1 -> is_trimmed s o2 -> o1 = o2.
Proof. exact is_trimmed_unique. Qed.
Print Assumptions C08_trimmed_unique.
Theorem C08_trim_error : forall d, fin d = false -> trim d = None.
Proof. exact trim_error. Qed.
Print Assumptions C08_trim_error.
Theorem C08_white_space : forall c, is_whitespace c = true <-> In c white_space.
Proof. exact is_whitespace_spec. Qed.
Print Assumptions C08_white_space.
Example C08_example : trim (shown [lit " "; [9]; lit " a b"; lit " "; []; [12288]]) = Some (lit "a b").
Proof. vm_compute. reflexivity. Qed.

(** C09.  First display. *)
Theorem C09_join : forall items sep, fin sep = true -> Forall (fun d => fin d = true) items ->
  text (fst (join_fmt (join items sep))) = intercalate (text sep) (map text items)
  /\ fin (fst (join_fmt (join items sep))) = true.
Proof. exact join_correct. Qed.
Print Assumptions C09_join.
Theorem C09_join_error : forall sep items, Exists (fun d => fin d = false) items ->
  fin (fst (join_fmt (join items sep))) = false.
Proof. exact (fun sep items H => join_fails sep items H 0). Qed.
Print Assumptions C09_join_error.
Example C09_example : text (fst (join_fmt (join [shown [lit "a"]; shown [lit "b"; lit "c"]; shown []] (shown [lit ", "])))) = lit "a, bc, ".
Proof. vm_compute. reflexivity. Qed.
(** A joined value shown a second time is not the same text: it is empty. *)
Theorem C09_join_twice_refuted : exists items sep,
  let j := join items sep in let j' := snd (join_fmt j) in
  text (fst (join_fmt j)) = lit "a-b" /\ text (fst (join_fmt j')) = [] /\ fin (fst (join_fmt j')) = true.
Proof. exists [shown [lit "a"]; shown [lit "b"]], (shown [lit "-"]). vm_compute. auto. Qed.
Print Assumptions C09_join_twice_refuted.

(** C10. *)
Theorem C10_linebreaks : forall s, linebreaks s = lit "<p>" ++ linebreaks_spec s ++ lit "</p>".
Proof. exact linebreaks_correct. Qed.
Print Assumptions C10_linebreaks.
Theorem C10_linebreaksbr : forall s, linebreaksbr s = flat_map (fun c => if c =? 10 then lit "<br/>" else [c]) s.
Proof. exact linebreaksbr_correct. Qed.
Print Assumptions C10_linebreaksbr.
Theorem C10_no_newline_left : forall s, ~ In 10 (linebreaks s) /\ ~ In 10 (linebreaksbr s).
Proof. exact linebreaks_no_newline. Qed.
Print Assumptions C10_no_newline_left.
(** Full statement wanted for [paragraphbreaks]: the output is [as_paragraphs (drop_empty (paragraphs s))] for every [s].
    Proved: for texts that do not themselves have an empty paragraph tag, an opening tag at the end of a paragraph or a
    closing tag at the start of one, with empty paragraphs removed except at the two ends.  Each of the three is needed
    ([C10_text_kept_refuted], [C10_tags_kept_refuted]). *)
Theorem C10_paragraphbreaks_partial : forall s,
  ~ has (lit "<p></p>") s -> ~ has (lit "<p>" ++ [10; 10]) s -> ~ has ([10; 10] ++ lit "</p>") s ->
  paragraphbreaks s = as_paragraphs (drop_empty_inner (paragraphs s)).
Proof. exact paragraphbreaks_correct. Qed.
Print Assumptions C10_paragraphbreaks_partial.
Example C10_tags_example : let s := lit "<p>a</p> <b>" ++ [10; 10; 10; 10] ++ lit "c <p>d" in
  ~ has (lit "<p></p>") s /\ ~ has (lit "<p>" ++ [10; 10]) s /\ ~ has ([10; 10] ++ lit "</p>") s /\
  paragraphbreaks s = lit "<p><p>a</p> <b></p><p>c <p>d</p>".
Proof. cbv zeta. repeat split; try (apply hasb_false; vm_compute; reflexivity). Qed.
Example C10_example : paragraphbreaks (lit "a" ++ [10; 10; 10; 10] ++ lit "b" ++ [10] ++ lit "c") = lit "<p>a</p><p>b" ++ [10] ++ lit "c</p>".
Proof. vm_compute. reflexivity. Qed.
(** An empty first paragraph is left in the output. *)
Theorem C10_empty_paragraph_removed_refuted : exists s, Forall (fun c => c <> 60) s /\
  paragraphbreaks s = lit "<p></p><p>a</p>" /\ as_paragraphs (drop_empty (paragraphs s)) = lit "<p>a</p>".
Proof. exists ([10; 10] ++ lit "a"). split; [|vm_compute; auto]. repeat constructor; discriminate. Qed.
Print Assumptions C10_empty_paragraph_removed_refuted.
(** Text of the user that happens to be an empty paragraph tag is lost. *)
Theorem C10_text_kept_refuted : exists s, ~ In 10 s /\ s = lit "x<p></p>y" /\ paragraphbreaks s = lit "<p>xy</p>".
Proof. exists (lit "x<p></p>y"). vm_compute. split; [|auto]. intros H. repeat (destruct H as [H|H]; [discriminate|]). exact H. Qed.
Print Assumptions C10_text_kept_refuted.

(** So are a tag of the user at the end of a paragraph and one at the start of a paragraph. *)
Theorem C10_tags_kept_refuted : exists s s',
  s = lit "a<p>" ++ [10; 10] ++ lit "b" /\ paragraphbreaks s = lit "<p>a<p>b</p>" /\
  s' = lit "a" ++ [10; 10] ++ lit "</p>b" /\ paragraphbreaks s' = lit "<p>a</p>b</p>".
Proof. eexists. eexists. split; [reflexivity|]. split; [vm_compute; reflexivity|]. split; [reflexivity|]. vm_compute. reflexivity. Qed.
Print Assumptions C10_tags_kept_refuted.

(** C11.  (All bytes are below 256.) *)
Theorem C11_urlencode_strict : forall d, Forall (fun b => b < 256) (text d) ->
  url_safe unreserved (text (urlencode_strict d)) /\ percent_decode (text (urlencode_strict d)) = text d
  /\ fin (urlencode_strict d) = fin d.
Proof. exact urlencode_strict_correct. Qed.
Print Assumptions C11_urlencode_strict.
Theorem C11_urlencode : forall d, Forall (fun b => b < 256) (text d) ->
  url_safe (fun c => unreserved c || (c =? 47)) (text (urlencode d)) /\ percent_decode (text (urlencode d)) = text d
  /\ fin (urlencode d) = fin d.
Proof. exact urlencode_correct. Qed.
Print Assumptions C11_urlencode.
Example C11_example :
  text (urlencode (shown [lit "/a b%"; [195]; [169]])) = lit "/a%20b%25%C3%A9" /\
  text (urlencode_strict (shown [lit "/a"])) = lit "%2Fa".
Proof. vm_compute. auto. Qed.

(** C12. *)
Theorem C12_json_html_safe : forall d, exists d', json_fmt d = Some d' /\
  forall x, In x (text d') -> x <> 38 /\ x <> 39 /\ x <> 60 /\ x <> 62.
Proof. exact json_safe. Qed.
Print Assumptions C12_json_html_safe.
Theorem C12_json_same_meaning : forall d, well_escaped false (text d) = true ->
  exists d', json_fmt d = Some d' /\ json_decode (text d') = json_decode (text d) /\ fin d' = fin d.
Proof. exact json_denotes. Qed.
Print Assumptions C12_json_same_meaning.
Theorem C12_json_lossless : forall d, well_escaped false (text d) = true ->
  (forall a b, text d = a ++ 92 :: b -> json_u b = None) ->
  exists d', json_fmt d = Some d' /\ json_decode (text d') = text d /\ fin d' = fin d.
Proof. exact json_lossless. Qed.
Print Assumptions C12_json_lossless.
(** The unchecked conversions are applied to valid UTF-8 only. *)
Theorem C12_json_unchecked_sound : forall d d', Forall valid (pieces d) -> json_fmt d = Some d' -> Forall valid (pieces d').
Proof. exact json_valid. Qed.
Print Assumptions C12_json_unchecked_sound.
Example C12_example :
  let t := [34] ++ lit "<a" ++ [92; 92] ++ lit "u0026'" ++ [92; 34] ++ lit ">" ++ [34] in
  well_escaped false t = true /\ option_map (fun d => json_decode (text d)) (json_fmt (shown [t])) = Some t
  /\ option_map text (json_fmt (shown [lit "<script>"])) = Some ([92] ++ lit "u003cscript" ++ [92] ++ lit "u003e").
Proof. vm_compute. auto. Qed.

(** C13.  The Unicode case tables are arbitrary. *)
Theorem C13_capitalize : forall up low c cs, scalar c = true -> forallb scalar cs = true ->
  capitalize up low (c :: cs) = Some (encode (up c) ++ low (encode cs)).
Proof. exact capitalize_correct. Qed.
Print Assumptions C13_capitalize.
Theorem C13_title_word : forall up low isu isl lead first word rest,
  all_ws lead -> is_whitespace first = false -> Forall (fun c => is_whitespace c = false) word ->
  (rest = [] \/ exists c r, rest = c :: r /\ is_whitespace c = true) ->
  title up low isu isl (lead ++ first :: word ++ rest) =
    lead ++ (if isu first then [first] else up first)
         ++ flat_map (fun c => if isl c then [c] else low c) word ++ title up low isu isl rest.
Proof. exact title_correct. Qed.
Print Assumptions C13_title_word.
Theorem C13_title_blank : forall up low isu isl s, all_ws s -> title up low isu isl s = s.
Proof. exact title_blank. Qed.
Print Assumptions C13_title_blank.
Theorem C13_wordcount : forall s, wordcount s = word_starts true s.
Proof. exact wordcount_correct. Qed.
Print Assumptions C13_wordcount.
Theorem C13_center : forall s w, w < 10000 ->
  exists l r, center s w = repeat 32 l ++ s ++ repeat 32 r /\ (l + r = N.to_nat w - length s)%nat /\ (l <= r <= S l)%nat.
Proof. exact center_correct. Qed.
Print Assumptions C13_center.
Definition ascii_up (c : N) : str := if (97 <=? c) && (c <=? 122) then [c - 32] else [c].
Definition ascii_low (c : N) : str := if (65 <=? c) && (c <=? 90) then [c + 32] else [c].
Example C13_example :
  title ascii_up ascii_low (fun _ => false) (fun _ => false) (lit " foO  bAr") = lit " Foo  Bar" /\
  capitalize ascii_up (flat_map ascii_low) (lit "foO BAR") = Some (lit "Foo bar") /\
  wordcount (lit " a bc  d ") = 3%nat /\ center (lit "abc") 8 = lit "  abc   ".
Proof. vm_compute. auto. Qed.
