(** * The filters that come with askama.
    The public functions of the module askama::filters, in the order of the source: askama/src/filters/mod.rs (the lines are
    given beside each name) and json.rs.  Specification of [BUILT_IN_FILTERS], which is a list of the other crate. *)
From Verif Require Import Base.

Definition shipped : list str :=
  [lit "json";                                  (* mod.rs:15, json.rs:22 *)
   lit "safe"; lit "escape"; lit "e";           (* 55, 72, 82 *)
   lit "filesizeformat";                        (* 109 *)
   lit "urlencode"; lit "urlencode_strict";     (* 145, 165 *)
   lit "fmt"; lit "format";                     (* 201, 215 *)
   lit "linebreaks"; lit "linebreaksbr"; lit "paragraphbreaks"; (* 222, 232, 245 *)
   lit "lower"; lit "lowercase"; lit "upper"; lit "uppercase"; (* 255, 264, 270, 279 *)
   lit "trim"; lit "truncate"; lit "indent";    (* 284, 305, 378 *)
   lit "into_f64"; lit "into_isize";            (* 400, 409 *)
   lit "join"; lit "abs"; lit "capitalize";     (* 418, 464, 473 *)
   lit "center"; lit "wordcount"; lit "title"]. (* 489, 510, 520 *)
