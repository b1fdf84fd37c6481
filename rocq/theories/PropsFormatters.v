(** C88: the output format asked for is the one registered last under that
    name. *)
From Coq Require Import String List Bool.
From Verif Require Import BaseFacts MetaFacts OutputFacts SchemaCases PropsOutput PropsResult Formatters.
Import ListNotations.
Open Scope string_scope.
Open Scope list_scope.

(** The formatters [h] registered one after the other. *)
Definition registering (h : list (pystr * formatter)) (t : formatters) : formatters := fold_left (fun t kf => output_formatter (fst kf) (snd kf) t) h t.
(** [f] was registered for the format, and nothing was after it. *)
Definition latest_for (h : list (pystr * formatter)) (format : pystr) (f : formatter) : Prop :=
  exists h1 h2, h = h1 ++ (format, f) :: h2 /\ ~ In format (map fst h2).

Lemma registering_other h : forall t format, ~ In format (map fst h) -> dget format (registering h t) = dget format t.
Proof.
  induction h as [|[k f] r IH]; intros t format N; [reflexivity|]. cbn [registering fold_left fst snd]. fold (registering r (output_formatter k f t)). rewrite IH by (intro; apply N; now right).
  unfold output_formatter. rewrite dget_dset. destruct (str_eqb_spec format k) as [->|]; [elim N; now left|reflexivity].
Qed.
Theorem C88_latest : forall h t format f n kw, latest_for h format f -> create_output (registering h t) n format kw = f n kw.
Proof.
  intros h t format f n kw (h1 & h2 & -> & N). unfold registering. rewrite fold_left_app. cbn [fold_left fst snd]. fold (registering h1 t). fold (registering h2 (output_formatter format f (registering h1 t))).
  unfold create_output. rewrite registering_other by exact N. unfold output_formatter. rewrite dget_dset. now destruct (str_eqb_spec format format).
Qed.
Print Assumptions C88_latest.
(** A format that was not registered again stays what it was, and one that was
    never registered raises KeyError. *)
Theorem C88_others : forall h t format n kw, ~ In format (map fst h) -> create_output (registering h t) n format kw = create_output t n format kw.
Proof. intros h t format n kw N. unfold create_output. now rewrite registering_other. Qed.
Print Assumptions C88_others.
Theorem C88_unknown : forall uri W h format n kw, ~ In format (map fst h) -> ~ In format (map lit ["flag"; "basic"; "detailed"; "verbose"; "hierarchical"]) ->
  create_output (registering h (standard_formatters uri W)) n format kw = Exn EKey.
Proof.
  intros uri W h format n kw N S. rewrite C88_others by exact N. unfold create_output.
  assert (D : dget format (standard_formatters uri W) = None).
  { unfold standard_formatters, output_formatter. rewrite !dget_dset.
    repeat match goal with |- context [str_eqb format ?k] => destruct (str_eqb_spec format k) as [X|_]; [elim S; rewrite X; cbn [map In]; tauto|] end. reflexivity. }
  now rewrite D.
Qed.
Print Assumptions C88_unknown.

(** Each of the five formats can be produced from every result of an
    evaluation, and reports its verdict. *)
Theorem C88_standard : forall uri d W h fuel s i r format, good_world d W -> evaluate_root W fuel s i = Ok r ->
  ~ In format (map fst h) -> In format (map lit ["flag"; "basic"; "detailed"; "verbose"; "hierarchical"]) ->
  exists o, create_output (registering h (standard_formatters uri W)) r format [] = Ok o /\ says (r_valid r) o.
Proof.
  intros uri d W h fuel s i r format G Ev N I. rewrite C88_others by exact N. destruct (C46_verdict uri None r) as (S1 & S2 & S3 & S4).
  destruct (C61_hierarchical uri d W fuel s i r G Ev) as [o Ho].
  cbn [map In] in I. destruct I as [<-|[<-|[<-|[<-|[<-|[]]]]]].
  - exists (out_flag r). split; [reflexivity|exact S1].
  - exists (out_basic uri None r). split; [reflexivity|exact S2].
  - exists (out_detailed uri r). split; [reflexivity|exact S3].
  - exists (out_verbose uri r). split; [reflexivity|exact S4].
  - exists o. split; [exact Ho|]. exact (C46_hierarchical uri W fuel s i r o Ev Ho).
Qed.
Print Assumptions C88_standard.
(** Only basic takes a keyword argument, and only the one named annotations. *)
Theorem C88_arguments : forall uri W n k a kw,
  (forall format, In format (map lit ["flag"; "detailed"; "verbose"; "hierarchical"]) ->
     create_output (standard_formatters uri W) n format ((k, a) :: kw) = Exn EType) /\
  (create_output (standard_formatters uri W) n (lit "basic") ((k, a) :: kw) = Exn EType \/
   k = lit "annotations" /\ kw = [] /\ create_output (standard_formatters uri W) n (lit "basic") ((k, a) :: kw) = Ok (out_basic uri a n)).
Proof.
  intros uri W n k a kw. split.
  - intros format I. cbn [map In] in I. destruct I as [<-|[<-|[<-|[<-|[]]]]]; reflexivity.
  - change (create_output (standard_formatters uri W) n (lit "basic") ((k, a) :: kw)) with (annotations_kwarg (fun a n => Ok (out_basic uri a n)) n ((k, a) :: kw)).
    cbn [annotations_kwarg]. destruct kw; [|now left]. destruct (str_eqb_spec k (lit "annotations")) as [->|]; [|now left]. right. auto.
Qed.
Print Assumptions C88_arguments.

(** A format registered under the name of a standard one, and another one. *)
Definition counting : formatter := no_kwargs (fun n => Ok (int (Z.of_nat (List.length (r_children n))))).
Definition table88 : formatters :=
  registering [(lit "flag", no_kwargs (fun _ => Ok JNull)); (lit "count", counting); (lit "flag", counting)] (standard_formatters (fun _ => []) (small titled)).
Example C88_case : good_world dialect_2020_12 (small titled) /\ exists r, evaluate_root (small titled) 10 0 (root (obj [("a", int 1)])) = Ok r /\
  create_output table88 r (lit "flag") [] = Ok (int 3) /\ create_output table88 r (lit "count") [] = Ok (int 3) /\
  create_output table88 r (lit "verdict") [] = Exn EKey /\ (exists o, create_output table88 r (lit "hierarchical") [] = Ok o /\ says true o) /\
  (exists o os, create_output table88 r (lit "basic") [(lit "annotations", Some [lit "title"])] = Ok o /\ field (lit "annotations") o = Some (JArr os) /\ List.length os = 2) /\
  create_output table88 r (lit "basic") [(lit "only", None)] = Exn EType.
Proof.
  split; [apply good_small; vm_compute; reflexivity|].
  eexists. split; [vm_compute; reflexivity|]. split; [vm_compute; reflexivity|]. split; [vm_compute; reflexivity|]. split; [vm_compute; reflexivity|].
  split; [eexists; split; vm_compute; reflexivity|]. split; [eexists; eexists; split; [vm_compute; reflexivity|split; vm_compute; reflexivity]|]. vm_compute. reflexivity.
Qed.
