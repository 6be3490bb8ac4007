(** Which HTTP requests reach the components' handlers.

    listener/listener.go:218-219, monitor/monitor.go:113-114 and probes/probes.go:64-66 register their handlers with http.ServeMux
    (Go 1.15, net/http/server.go: cleanPath, ServeMux.Handler, redirectToPathSlash, match; path/path.go Clean), which is modelled from
    knowledge, its source is not in the repository.  A path here is r.URL.Path: decoded, without the query. *)
From Verif Require Import Base.

Definition slash : ascii := "/"%char.
Definition dotchar : ascii := "."%char.

(** path/path.go Clean for rooted paths; the buffer [o] in reverse, with its slash at the bottom.
    The element read so far ends here. *)
Definition ends (r : bytes) : bool := match r with [] => true | d :: _ => Ascii.eqb d slash end.
(** Drop the last element of the buffer; the slash at the bottom stays. *)
Fixpoint back (o : bytes) : bytes :=
  match o with
  | [] => []
  | [c] => [c]
  | c :: o' => if Nat.leb (length o') 1 || Ascii.eqb c slash then o' else back o'
  end.
Definition sep (o : bytes) : bytes := if Nat.eqb (length o) 1 then o else slash :: o.
(** [elem]: in the middle of an element. *)
Fixpoint clean (elem : bool) (p o : bytes) : bytes :=
  match p with
  | [] => rev o
  | c :: r =>
      if Ascii.eqb c slash then clean false r o
      else if elem then clean true r (c :: o)
      else if Ascii.eqb c dotchar && ends r then clean false r o
      else match r with
           | d :: r2 => if Ascii.eqb c dotchar && Ascii.eqb d dotchar && ends r2 then clean false r2 (back o) else clean true r (c :: sep o)
           | [] => clean true r (c :: sep o)
           end
  end.
(** path.Clean of a path which begins with a slash. *)
Definition Clean (p : bytes) : bytes := clean false (tl p) [slash].

(** net/http/server.go cleanPath. *)
Definition ends_in_slash (p : bytes) : bool := match rev p with c :: _ => Ascii.eqb c slash | [] => false end.
Definition cleanPath (p : bytes) : bytes :=
  match p with
  | [] => [slash]
  | c :: _ =>
      let p := if Ascii.eqb c slash then p else slash :: p in
      let np := Clean p in
      if ends_in_slash p && negb (beqs np [slash]) then np ++ [slash] else np
  end.

(** What a request gets. *)
Inductive routed :=
| Handled (pattern : bytes)   (** the handler of this pattern runs *)
| Moved (path : bytes)        (** 301 Moved Permanently *)
| NotFound.                   (** 404 *)
(** ServeMux.match, for patterns which do not end in a slash and have no host. *)
Definition handler (patterns : list bytes) (p : bytes) : routed := if existsb (beqs p) patterns then Handled p else NotFound.
(** ServeMux.Handler (redirectToPathSlash does nothing for such patterns). *)
Definition Route (patterns : list bytes) (connect : bool) (p : bytes) : routed :=
  if connect then handler patterns p
  else let q := cleanPath p in if beqs q p then handler patterns p else Moved q.
(** listener/listener.go:219; monitor/monitor.go:114; probes/probes.go:65-66. *)
Definition listener_patterns : list bytes := [lit "/write"].
Definition monitor_patterns : list bytes := [lit "/metrics"].
Definition probe_patterns : list bytes := [lit "/healthz"; lit "/readyz"].

(** ** A request and its redirects *)
Record request := Req { q_post : bool; q_connect : bool; q_path : bytes; q_body : bytes }.
(** What a client which follows redirects sends after a 301: net/http (client.go redirectBehavior), browsers and curl -L alike turn a POST
    into a GET without body. *)
Definition redirected (q : request) (path : bytes) : request := Req false (q_connect q) path [].
(** The answers, and the bodies which the handler for a pattern is given; the client follows at most [n] redirects. *)
Fixpoint follow (patterns : list bytes) (n : nat) (q : request) : list (request * routed) :=
  let a := Route patterns (q_connect q) (q_path q) in
  (q, a) :: match a, n with Moved p, S n' => follow patterns n' (redirected q p) | _, _ => [] end.

(** ** Specification *)
(** The elements of a path, and where they lead. *)
Fixpoint elements (p : bytes) : list bytes :=
  match p with
  | [] => [[]]
  | c :: r => if Ascii.eqb c slash then [] :: elements r
              else match elements r with e :: es => (c :: e) :: es | [] => [[c]] end
  end.
Fixpoint walk (es : list bytes) (at_ : list bytes) : list bytes :=
  match es with
  | [] => at_
  | e :: r => if beqs e [] || beqs e (lit ".") then walk r at_
              else if beqs e (lit "..") then walk r (removelast at_)
              else walk r (at_ ++ [e])
  end.
Definition place (p : bytes) : list bytes := walk (elements p) [].
Definition absolute (es : list bytes) : bytes := match es with [] => [slash] | _ => concat (map (fun e => slash :: e) es) end.
(** The path's usual form: where it leads, with its slash at the end if it has one. *)
Definition usual (p : bytes) : bytes :=
  absolute (place p) ++ (match place p, rev p with _ :: _, c :: _ => if Ascii.eqb c slash then [slash] else [] | _, _ => [] end).
