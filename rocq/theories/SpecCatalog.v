(** What registering sources and using caches should amount to. *)
From Verif Require Export Catalog.
Open Scope nat_scope.

(** ** Sources. *)

(** A base URI under which a source may be registered, and the text it stands
    for. *)
Definition acceptable (L : urilib) (u : uri) : Prop :=
  ul_conforms L u = true /\ ul_has_scheme L u = true /\ ul_normal L u = true /\ u_frag u = None /\
  exists q, ul_path L u = q ++ [47%N].
Definition stands_for (L : urilib) (base : option uri) (p : pystr) : Prop :=
  match base with None => p = [] | Some u => acceptable L u /\ p = uri_str u end.
(** A URI that may be loaded. *)
Definition loadable (L : urilib) (u : uri) : Prop :=
  ul_conforms L u = true /\ ul_has_scheme L u = true /\ ul_normal L u = true /\ u_frag u = None.

(** The registrations in order; those refused leave the table as it is. *)
Fixpoint register (L : urilib) (h : list (option uri * source)) (t : sources) : sources :=
  match h with
  | [] => t
  | (b, src) :: r => register L r (match add_uri_source L b src t with Ok t' => t' | _ => t end)
  end.

(** [src] is the source registered last for the prefix [p]. *)
Definition latest (L : urilib) (h : list (option uri * source)) (p : pystr) (src : source) : Prop :=
  exists h1 b h2, h = h1 ++ (b, src) :: h2 /\ stands_for L b p /\ forall b' src', In (b', src') h2 -> ~ stands_for L b' p.
Definition registered (L : urilib) (h : list (option uri * source)) (p : pystr) : Prop :=
  exists b src, In (b, src) h /\ stands_for L b p.
Definition is_prefix (p s : pystr) : Prop := exists r, s = p ++ r.
(** [p] is the longest registered prefix of [s]. *)
Definition longest (L : urilib) (h : list (option uri * source)) (s p : pystr) : Prop :=
  registered L h p /\ is_prefix p s /\ forall q, registered L h q -> is_prefix q s -> length q <= length p.

(** ** Caches. *)

Inductive event : Set :=
| Added (c : pystr) (u : uri) (s : sid)
| Deleted (c : pystr) (u : uri)
| Left (c : pystr).
Definition happen (e : event) (t : caches) : caches :=
  match e with Added c u s => add_schema c u s t | Deleted c u => del_schema c u t | Left c => leave_cache c t end.
Definition history (h : list event) : caches := fold_left (fun t e => happen e t) h [].

(** [e] concerns the entry for [u] in cache [c]. *)
Definition concerns (c : pystr) (u : uri) (e : event) : Prop :=
  match e with Added c' u' _ => c' = c /\ u' = u | Deleted c' u' => c' = c /\ u' = u | Left c' => c' = c end.
(** [s] was added for [u] in [c], and nothing has happened to that entry since. *)
Definition stays (h : list event) (c : pystr) (u : uri) (s : sid) : Prop :=
  exists h1 h2, h = h1 ++ Added c u s :: h2 /\ forall e, In e h2 -> ~ concerns c u e.

(** A program that never mentions cache [c]. *)
Inductive foreign (c : pystr) : cmd -> Prop :=
| f_add c' u s : c' <> c -> foreign c (CAdd c' u s)
| f_del c' u : c' <> c -> foreign c (CDel c' u)
| f_raise : foreign c CRaise
| f_block c' body : c' <> c -> Forall (foreign c) body -> foreign c (CBlock c' body).
