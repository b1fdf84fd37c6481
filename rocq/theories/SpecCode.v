(** What evaluation of a schema computes in jschon, put in the terms of
    SpecSchema.v: verdicts, and evaluated members and items, with no result
    tree, no annotations and no evaluation order.  It differs from the
    judgement that the specification prescribes ([judge]) as follows.
    - Every keyword is evaluated, also after another one has rejected
      (jsonschema.py:208-218); the unevaluated keywords look at what the
      accepting ones evaluated.
    - [not] hands on what its rejecting subschema evaluated
      (vocabulary/applicator.py:80-86).
    - [items], [additionalItems] and [unevaluatedItems] count the whole array
      as evaluated as soon as they look at one item: their annotation is True
      (vocabulary/applicator.py:178, 236; vocabulary/legacy.py:100, 155).
    - [items] of 2019-09 applies a boolean to the array instead of its items,
      and counts nothing as evaluated (vocabulary/legacy.py:64-65).
    - [additionalItems] accepts when the array form of [items] rejects, which
      leaves no annotation (vocabulary/legacy.py:95, 111-112).
    - [contains] accepts if an item matches; [minContains] and [maxContains]
      judge the number of matches by themselves, and let [contains] pass if
      both accept (vocabulary/validation.py:185-212). *)
From Verif Require Export SpecSchema.
Open Scope nat_scope.

Section Code.
Variable W : world.
Variable choose : pystr -> list sid -> sid -> sid.
Variable code : list sid -> sid -> json -> option outcome.

(** Nothing, or all of [len] items as soon as one has been looked at. *)
Definition all_or_none (os : list outcome) (len : nat) : list nat :=
  match os with [] => [] | _ => seq 0 len end.

Definition code_rest (scope : list sid) (start : nat) (t : sid) (l : list json) : option outcome :=
  obind (judge_all code scope t (skipn start l)) (fun os =>
  Some (mkO (all_accept os) [] (all_or_none os (length l)) [])).

(** The number of items that contains matches, if there is a contains. *)
Definition code_count (scope : list sid) (kws : list (pystr * keyword)) (x : json) : option (option nat) :=
  match dget (lit "contains") kws with
  | None => Some None
  | Some _ =>
      obind (sub_of (dget (lit "contains") kws)) (fun t =>
      obind (judge_all code scope t (items x)) (fun os => Some (Some (count os))))
  end.
Definition code_limit (scope : list sid) (kws : list (pystr * keyword)) (rel : num -> num -> bool) (k : keyword) (x : json) : option outcome :=
  obind (code_count scope kws x) (fun n =>
  match n with
  | None => Some (plain true)
  | Some n => obind (limit_ok rel (size n) (kw_json k)) (fun b => Some (plain b))
  end).

Definition code_std (scope : list sid) (kws : list (pystr * keyword)) (k : keyword) (c : stdclass) (x : json) : option outcome :=
  match c with
  | KNot =>
      obind (sub_of (Some k)) (fun t => obind (code scope t x) (fun o =>
      Some (mkO (negb (o_ok o)) (o_names o) (o_places o) (o_found o))))
  | KItems =>
      obind (sub_of (Some k)) (fun t =>
      code_rest scope (match subs_of (dget (lit "prefixItems") kws) with Some ts => length ts | None => 0 end) t (items x))
  | KItems2019 =>
      match kw_json k with
      | KSub t => match w_schema W t with
                  | SBool _ => match items x with [] => Some (plain true) | _ => code scope t x end
                  | SObj _ => judge_rest code scope 0 t (items x)
                  end
      | KSubs ts => judge_pairs code scope ts (items x)
      | _ => None
      end
  | KAdditionalItems =>
      match subs_of (dget (lit "items") kws) with
      | Some ts =>
          obind (sub_of (Some k)) (fun t => obind (judge_pairs code scope ts (items x)) (fun o =>
          if o_ok o then code_rest scope (length ts) t (items x) else Some (plain true)))
      | None => Some (plain true)
      end
  | KContains =>
      obind (sub_of (Some k)) (fun t => obind (judge_all code scope t (items x)) (fun os =>
      let n := size (count os) in
      obind (match dget (lit "minContains") kws with
             | Some k' => limit_ok (fun a b => num_leb b a) n (kw_json k')
             | None => Some false
             end) (fun low =>
      obind (match dget (lit "maxContains") kws with
             | Some k' => limit_ok (fun a b => negb (num_gtb a b)) n (kw_json k')
             | None => Some true
             end) (fun high =>
      Some (mkO (negb (Nat.eqb (count os) 0) || (low && high)) [] [] (accepted 0 os))))))
  | KMinContains => code_limit scope kws (fun a b => num_leb b a) k x
  | KMaxContains => code_limit scope kws (fun a b => negb (num_gtb a b)) k x
  | _ => judge_std W choose code scope kws k c x
  end.

(** The unevaluated keywords, after [o]. *)
Definition code_unevaluated (scope : list sid) (o : outcome) (k : keyword) (c : stdclass) (x : json) : option outcome :=
  let leave evaluated :=
    obind (sub_of (Some k)) (fun t =>
    let left := filter (fun n => negb (existsb (Nat.eqb n) evaluated)) (seq 0 (length (items x))) in
    obind (judge_all code scope t (map (fun n => nth n (items x) JNull) left)) (fun os =>
    Some (mkO (all_accept os) [] (all_or_none os (length (items x))) []))) in
  match c with
  | KUnevaluatedItems => leave (o_places o ++ o_found o)
  | KUnevaluatedItems2019 => leave (o_places o)
  | _ => judge_unevaluated code scope o k c x
  end.

Definition code_keyword (scope : list sid) (kws : list (pystr * keyword)) (x : json) (k : keyword) : option outcome :=
  match kw_class k with
  | Std c => code_std scope kws k c x
  | Unknown _ => Some (plain true)
  end.

Definition code_object (scope : list sid) (kws : list (pystr * keyword)) (x : json) : option outcome :=
  let concerned := filter (concerns x) (map snd kws) in
  let early := filter (fun k => match late k with None => true | Some _ => false end) concerned in
  obind (all_some (map (code_keyword scope kws x) early)) (fun os =>
  obind (all_some (flat_map (fun k => match late k with
                                      | Some c => [code_unevaluated scope (gather true os) k c x]
                                      | None => []
                                      end) concerned)) (fun us =>
  Some (gather (all_accept (os ++ us)) (os ++ us)))).
End Code.

Fixpoint code_judge (W : world) (choose : pystr -> list sid -> sid -> sid) (n : nat) (scope : list sid) (s : sid) (x : json) : option outcome :=
  match n with
  | O => None
  | S n =>
      match w_schema W s with
      | SBool b => Some (plain b)
      | SObj kws => code_object W choose (code_judge W choose n) (s :: scope) kws x
      end
  end.
