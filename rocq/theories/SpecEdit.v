(** What editing the value of a keyword should do. *)
From Verif Require Export SpecBuild SchemaEdit.
Open Scope nat_scope.

(** The value an edit brings in. *)
Definition item_of (e : amendment) : option json :=
  match e with PutItem _ v | InsertItem _ v | PutMember _ v => Some v | _ => None end.
(** [v'] is [v] after the edit. *)
Inductive amends : amendment -> json -> json -> Prop :=
| am_put l1 x l2 v : amends (PutItem (length l1) v) (JArr (l1 ++ x :: l2)) (JArr (l1 ++ v :: l2))
| am_insert l1 l2 v : amends (InsertItem (length l1) v) (JArr (l1 ++ l2)) (JArr (l1 ++ v :: l2))
| am_drop l1 x l2 : amends (DropItem (length l1)) (JArr (l1 ++ x :: l2)) (JArr (l1 ++ l2))
| am_change n x v m1 m2 : ~ In n (keys m1) -> amends (PutMember n v) (JObj (m1 ++ (n, x) :: m2)) (JObj (m1 ++ (n, v) :: m2))
| am_add n v m : ~ In n (keys m) -> amends (PutMember n v) (JObj m) (JObj (m ++ [(n, v)]))
| am_remove n x m1 m2 : ~ In n (keys m1) -> amends (DropMember n) (JObj (m1 ++ (n, x) :: m2)) (JObj (m1 ++ m2)).
(** [v'] is [v] with the value at [p] edited. *)
Inductive amended (e : amendment) : list pystr -> json -> json -> Prop :=
| ad_here v v' : amends e v v' -> amended e [] v v'
| ad_item p l1 x x' l2 : amended e p x x' -> amended e (str_of_nat (length l1) :: p) (JArr (l1 ++ x :: l2)) (JArr (l1 ++ x' :: l2))
| ad_member k p x x' m1 m2 : ~ In k (keys m1) -> amended e p x x' -> amended e (k :: p) (JObj (m1 ++ (k, x) :: m2)) (JObj (m1 ++ (k, x') :: m2)).

(** The keys that lead from schema [s] to its subschema [t]. *)
Definition first_keys (k : keyword) (ks : list pystr) (t : sid) : Prop :=
  match kw_json k with
  | KSub t' => ks = [] /\ t' = t
  | KSubs l => exists i, ks = [str_of_nat i] /\ nth_error l i = Some t
  | KSubm m => exists n, ks = [n] /\ dget n m = Some t
  | KJ _ => False
  end.
Inductive reached (objs : list sobj) (s : sid) : list pystr -> sid -> Prop :=
| reach_self : reached objs s [] s
| reach_below kws key k ks t p t' : keywords_at objs s kws -> In (key, k) kws -> first_keys k ks t ->
    reached objs t p t' -> reached objs s (key :: ks ++ p) t'.
