(** * Model of askama/src/lib.rs (Template, DynTemplate), the generated Display, and the web integrations. *)
From Verif Require Import Base.
Local Open Scope N_scope.

(** ** Rendering code *)
(** The behaviour of [render_into]: it writes pieces of text and may react to the outcome of each write; in the end it
    returns [Ok(())] or an error.  [EFmt] is [askama::Error::Fmt]; [ECustom] stands for the other variants
    (askama/src/error.rs:26-38), identified by their message. *)
Inductive error := EFmt | ECustom (msg : str).
Inductive render_prog := Ret (r : option error) | Write (s : str) (k : bool -> render_prog).

(** A [fmt::Write]: a state machine; [false] is [Err(fmt::Error)]. *)
Record writer := { w_state : Type; w_write : w_state -> str -> w_state * bool }.
Fixpoint render_into (w : writer) (p : render_prog) (s : w_state w) : w_state w * option error :=
  match p with
  | Ret r => (s, r)
  | Write t k => let (s', ok) := w_write w s t in render_into w (k ok) s'
  end.
(** [impl fmt::Write for String] *)
Definition string_writer : writer := {| w_state := str; w_write := fun s t => (s ++ t, true) |}.

(** [Template::render], askama/src/lib.rs:82-87.  [try_reserve]'s outcome is ignored; it does not change the text.
    [DynTemplate::dyn_render], 164-166, is the same call. *)
Definition render (size_hint : N) (p : render_prog) : str + error :=
  match render_into string_writer p [] with
  | (buf, None) => inl buf
  | (_, Some e) => inr e
  end.
Definition dyn_render := render.
(** [dyn_render_into], 168-170 *)
Definition dyn_render_into := render_into.
(** The generated [Display::fmt], askama_derive/src/generator.rs:140-149 ([false]: [Err(fmt::Error)]); the one of
    [dyn DynTemplate], askama/src/lib.rs:190-194, is the same.  The [Formatter] forwards [write_str] to its writer. *)
Definition display (w : writer) (p : render_prog) (s : w_state w) : w_state w * bool :=
  match render_into w p s with (s', None) => (s', true) | (s', Some _) => (s', false) end.
(** [ToString::to_string] (std): panics when [Display] fails. *)
Definition to_string (p : render_prog) : res str :=
  match display string_writer p [] with (buf, true) => Ok buf | (_, false) => Panic end.

(** An [io::Write]: [io_write_all] returns the new state and [None] or an I/O error. *)
Record io_writer := { io_state : Type; io_write_all : io_state -> str -> io_state * option str }.
(** std's [io::Write::write_fmt]: an adapter remembers the first I/O error... *)
Definition adapter (w : io_writer) : writer :=
  {| w_state := io_state w * option str;
     w_write := fun st t => let (s', e) := io_write_all w (fst st) t in
                            match e with None => ((s', snd st), true) | Some m => ((s', Some m), false) end |}.
(** ...and reports it.  When [fmt] fails although the stream did not, std returns an I/O error or, since 1.83, panics:
    [panics] tells which. *)
Definition write_fmt (panics : bool) (w : io_writer) (p : render_prog) (s : io_state w) : io_state w * res unit :=
  match display (adapter w) p (s, None) with
  | ((s', _), true) => (s', Ok tt)
  | ((s', Some m), false) => (s', Err m)
  | ((s', None), false) => (s', if panics then Panic else Err (lit "formatter error"))
  end.
(** [Template::write_into], askama/src/lib.rs:92-96, and [dyn_write_into], 172-175 *)
Definition write_into := write_fmt.
Definition dyn_write_into := write_fmt.

(** ** Web integrations *)
Record response := { status : N; content_type : str; body : str }.
Definition err_text (e : error) : str :=           (* askama/src/error.rs:51-60 *)
  match e with EFmt => lit "formatting error: an error occurred when formatting an argument" | ECustom m => m end.
Definition text_plain : str := lit "text/plain; charset=utf-8".
(** A default response of the frameworks' builders has status 200 (trusted). *)
Definition ok_response (mime : str) (text : str) : response := {| status := 200; content_type := mime; body := text |}.
(** askama_axum/src/lib.rs:19-28, askama_warp/src/lib.rs:26-35, askama_actix/src/lib.rs:21-29,
    askama_rocket/src/lib.rs:37-45; the builders cannot fail on a static header value. *)
Definition try_into_response (mime : str) (r : str + error) : response + error :=
  match r with inl text => inl (ok_response mime text) | inr e => inr e end.
(** askama_warp/src/lib.rs:11-24, askama_rocket/src/lib.rs:18-34 *)
Definition warp_into_response (mime : str) (r : str + error) : response :=
  match try_into_response mime r with
  | inl x => x
  | inr e => {| status := 500; content_type := text_plain; body := err_text e |}
  end.
Definition rocket_into_response := warp_into_response.
(** askama_rocket/src/lib.rs:13-16: what the derived Responder calls; [inr] is a status for the error catcher. *)
Definition rocket_respond (mime : str) (r : str + error) : response + N :=
  match try_into_response mime r with inl x => inl x | inr _ => inr 500 end.
(** askama_actix/src/lib.rs:16-18, 48.  [ResponseError]'s default implementation (trusted): 500 and the Display text. *)
Definition actix_into_response (mime : str) (r : str + error) : response :=
  match try_into_response mime r with
  | inl x => x
  | inr e => {| status := 500; content_type := text_plain; body := err_text e |}
  end.
(** axum_core: [IntoResponse for String] gives 200 with text/plain; [ErrorResponse::from(x)] is [x.into_response()] and a
    [Result<_, ErrorResponse>] responds with just that (trusted). *)
Definition axum_string_response (s : str) : response := {| status := 200; content_type := text_plain; body := s |}.
(** askama_axum/src/lib.rs:12-16 *)
Definition axum_into_response (mime : str) (r : str + error) : response :=
  match try_into_response mime r with inl x => x | inr e => axum_string_response (err_text e) end.
