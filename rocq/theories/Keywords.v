(** The keyword classes of jschon/vocabulary/*.py: their names, the instance
    types they evaluate, their dependencies, and the vocabularies that provide
    them. *)
From Verif Require Export Json.

(** One constructor per concrete subclass of Keyword (vocabulary/__init__.py:127);
    the file and lines of each class are given beside it. *)
Inductive stdclass : Set :=
| KSchema_  (* core.py:22-34 *)
| KVocabulary_  (* core.py:37-62 *)
| KId_  (* core.py:65-79 *)
| KIdNext  (* future.py:11-25 *)
| KRef  (* core.py:82-103 *)
| KAnchor  (* core.py:106-118 *)
| KDynamicRef  (* core.py:121-169 *)
| KDynamicAnchor  (* core.py:172-184 *)
| KDefs  (* core.py:187-189 *)
| KComment_  (* core.py:192-194 *)
| KRecursiveRef  (* legacy.py:16-48 *)
| KRecursiveAnchor  (* legacy.py:51-53 *)
| KAllOf  (* applicator.py:28-40 *)
| KAnyOf  (* applicator.py:43-55 *)
| KOneOf  (* applicator.py:58-74 *)
| KNot  (* applicator.py:77-86 *)
| KIf  (* applicator.py:89-94 *)
| KThen  (* applicator.py:97-105 *)
| KElse  (* applicator.py:108-116 *)
| KDependentSchemas  (* applicator.py:119-139 *)
| KPrefixItems  (* applicator.py:142-160 *)
| KItems  (* applicator.py:163-187 *)
| KUnevaluatedItems  (* applicator.py:190-245 *)
| KContains  (* applicator.py:248-263 *)
| KProperties  (* applicator.py:266-285 *)
| KPatternProperties  (* applicator.py:288-308 *)
| KAdditionalProperties  (* applicator.py:311-343 *)
| KUnevaluatedProperties  (* applicator.py:346-390 *)
| KPropertyNames  (* applicator.py:393-405 *)
| KItems2019  (* legacy.py:56-86 *)
| KAdditionalItems  (* legacy.py:89-112 *)
| KUnevaluatedItems2019  (* legacy.py:115-164 *)
| KUnevaluatedProperties2019  (* legacy.py:167-211 *)
| KType_  (* validation.py:33-46 *)
| KEnum  (* validation.py:49-55 *)
| KConst  (* validation.py:58-63 *)
| KMultipleOf  (* validation.py:66-75 *)
| KMaximum  (* validation.py:78-84 *)
| KExclusiveMaximum  (* validation.py:87-93 *)
| KMinimum  (* validation.py:96-102 *)
| KExclusiveMinimum  (* validation.py:105-111 *)
| KMaxLength  (* validation.py:114-120 *)
| KMinLength  (* validation.py:123-129 *)
| KPattern  (* validation.py:132-142 *)
| KMaxItems  (* validation.py:145-151 *)
| KMinItems  (* validation.py:154-160 *)
| KUniqueItems  (* validation.py:163-177 *)
| KMaxContains  (* validation.py:180-189 *)
| KMinContains  (* validation.py:192-212 *)
| KMaxProperties  (* validation.py:215-221 *)
| KMinProperties  (* validation.py:224-230 *)
| KRequired  (* validation.py:233-240 *)
| KDependentRequired  (* validation.py:243-256 *)
| KFormat  (* format.py:14-32 *)
| KTitle  (* vocabulary/annotation.py:26-27 *)
| KDescription  (* vocabulary/annotation.py:30-31 *)
| KDefault  (* vocabulary/annotation.py:34-35 *)
| KDeprecated  (* vocabulary/annotation.py:38-39 *)
| KReadOnly  (* vocabulary/annotation.py:42-43 *)
| KWriteOnly  (* vocabulary/annotation.py:46-47 *)
| KExamples  (* vocabulary/annotation.py:50-51 *)
| KContentMediaType  (* vocabulary/annotation.py:54-56 *)
| KContentEncoding  (* vocabulary/annotation.py:59-61 *)
| KContentSchema  (* vocabulary/annotation.py:64-73 *)
.

(** A keyword class: a standard one, or the annotation class that get_kwclass
    makes for an unrecognised key (vocabulary/__init__.py:99-108, 162-165). *)
Inductive kwclass : Set :=
| Std (c : stdclass)
| Unknown (key : pystr).

(** A number for each class; distinct Python classes are distinct objects. *)
Definition tag (c : stdclass) : N :=
  match c with
  | KSchema_ => 0
  | KVocabulary_ => 1
  | KId_ => 2
  | KIdNext => 3
  | KRef => 4
  | KAnchor => 5
  | KDynamicRef => 6
  | KDynamicAnchor => 7
  | KDefs => 8
  | KComment_ => 9
  | KRecursiveRef => 10
  | KRecursiveAnchor => 11
  | KAllOf => 12
  | KAnyOf => 13
  | KOneOf => 14
  | KNot => 15
  | KIf => 16
  | KThen => 17
  | KElse => 18
  | KDependentSchemas => 19
  | KPrefixItems => 20
  | KItems => 21
  | KUnevaluatedItems => 22
  | KContains => 23
  | KProperties => 24
  | KPatternProperties => 25
  | KAdditionalProperties => 26
  | KUnevaluatedProperties => 27
  | KPropertyNames => 28
  | KItems2019 => 29
  | KAdditionalItems => 30
  | KUnevaluatedItems2019 => 31
  | KUnevaluatedProperties2019 => 32
  | KType_ => 33
  | KEnum => 34
  | KConst => 35
  | KMultipleOf => 36
  | KMaximum => 37
  | KExclusiveMaximum => 38
  | KMinimum => 39
  | KExclusiveMinimum => 40
  | KMaxLength => 41
  | KMinLength => 42
  | KPattern => 43
  | KMaxItems => 44
  | KMinItems => 45
  | KUniqueItems => 46
  | KMaxContains => 47
  | KMinContains => 48
  | KMaxProperties => 49
  | KMinProperties => 50
  | KRequired => 51
  | KDependentRequired => 52
  | KFormat => 53
  | KTitle => 54
  | KDescription => 55
  | KDefault => 56
  | KDeprecated => 57
  | KReadOnly => 58
  | KWriteOnly => 59
  | KExamples => 60
  | KContentMediaType => 61
  | KContentEncoding => 62
  | KContentSchema => 63
  end%N.

Definition kwclass_eqb (a b : kwclass) : bool :=
  match a, b with
  | Std c, Std d => N.eqb (tag c) (tag d)
  | Unknown k, Unknown l => str_eqb k l
  | _, _ => false
  end.

(** [Keyword.key], vocabulary/__init__.py:128 and the [key = ...] line of each class. *)
Definition std_key (c : stdclass) : pystr :=
  match c with
  | KSchema_ => lit "$schema"
  | KVocabulary_ => lit "$vocabulary"
  | KId_ => lit "$id"
  | KIdNext => lit "$id"
  | KRef => lit "$ref"
  | KAnchor => lit "$anchor"
  | KDynamicRef => lit "$dynamicRef"
  | KDynamicAnchor => lit "$dynamicAnchor"
  | KDefs => lit "$defs"
  | KComment_ => lit "$comment"
  | KRecursiveRef => lit "$recursiveRef"
  | KRecursiveAnchor => lit "$recursiveAnchor"
  | KAllOf => lit "allOf"
  | KAnyOf => lit "anyOf"
  | KOneOf => lit "oneOf"
  | KNot => lit "not"
  | KIf => lit "if"
  | KThen => lit "then"
  | KElse => lit "else"
  | KDependentSchemas => lit "dependentSchemas"
  | KPrefixItems => lit "prefixItems"
  | KItems => lit "items"
  | KUnevaluatedItems => lit "unevaluatedItems"
  | KContains => lit "contains"
  | KProperties => lit "properties"
  | KPatternProperties => lit "patternProperties"
  | KAdditionalProperties => lit "additionalProperties"
  | KUnevaluatedProperties => lit "unevaluatedProperties"
  | KPropertyNames => lit "propertyNames"
  | KItems2019 => lit "items"
  | KAdditionalItems => lit "additionalItems"
  | KUnevaluatedItems2019 => lit "unevaluatedItems"
  | KUnevaluatedProperties2019 => lit "unevaluatedProperties"
  | KType_ => lit "type"
  | KEnum => lit "enum"
  | KConst => lit "const"
  | KMultipleOf => lit "multipleOf"
  | KMaximum => lit "maximum"
  | KExclusiveMaximum => lit "exclusiveMaximum"
  | KMinimum => lit "minimum"
  | KExclusiveMinimum => lit "exclusiveMinimum"
  | KMaxLength => lit "maxLength"
  | KMinLength => lit "minLength"
  | KPattern => lit "pattern"
  | KMaxItems => lit "maxItems"
  | KMinItems => lit "minItems"
  | KUniqueItems => lit "uniqueItems"
  | KMaxContains => lit "maxContains"
  | KMinContains => lit "minContains"
  | KMaxProperties => lit "maxProperties"
  | KMinProperties => lit "minProperties"
  | KRequired => lit "required"
  | KDependentRequired => lit "dependentRequired"
  | KFormat => lit "format"
  | KTitle => lit "title"
  | KDescription => lit "description"
  | KDefault => lit "default"
  | KDeprecated => lit "deprecated"
  | KReadOnly => lit "readOnly"
  | KWriteOnly => lit "writeOnly"
  | KExamples => lit "examples"
  | KContentMediaType => lit "contentMediaType"
  | KContentEncoding => lit "contentEncoding"
  | KContentSchema => lit "contentSchema"
  end.
Definition key_of (c : kwclass) : pystr :=
  match c with Std c => std_key c | Unknown k => k end.

(** [Keyword.instance_types], vocabulary/__init__.py:131 (all six types unless
    the class overrides it). *)
Definition all_types : list jtype := [TNull; TBoolean; TNumber; TString; TArray; TObject].
Definition std_types (c : stdclass) : list jtype :=
  match c with
  | KDependentSchemas | KProperties | KPatternProperties | KAdditionalProperties | KUnevaluatedProperties | KPropertyNames | KUnevaluatedProperties2019 | KMaxProperties | KMinProperties | KRequired | KDependentRequired
      => [TObject]
  | KPrefixItems | KItems | KUnevaluatedItems | KContains | KItems2019 | KAdditionalItems | KUnevaluatedItems2019 | KMaxItems | KMinItems | KUniqueItems | KMaxContains | KMinContains
      => [TArray]
  | KMultipleOf | KMaximum | KExclusiveMaximum | KMinimum | KExclusiveMinimum
      => [TNumber]
  | KMaxLength | KMinLength | KPattern | KContentMediaType | KContentEncoding | KContentSchema
      => [TString]
  | _ => all_types
  end.
Definition instance_types (c : kwclass) : list jtype :=
  match c with Std c => std_types c | Unknown _ => all_types end.

(** [Keyword.static], vocabulary/__init__.py:137. *)
Definition static (c : kwclass) : bool :=
  match c with
  | Std c =>
      match c with
      | KSchema_ | KVocabulary_ | KId_ | KIdNext | KAnchor | KDynamicAnchor | KDefs | KComment_ | KRecursiveAnchor => true
      | _ => false
      end
  | Unknown _ => false
  end.

(** [Keyword.depends_on], vocabulary/__init__.py:134. *)
Definition std_depends (c : stdclass) : list pystr :=
  match c with
  | KThen => [lit "if"]
  | KElse => [lit "if"]
  | KItems => [lit "prefixItems"]
  | KUnevaluatedItems => [lit "prefixItems"; lit "items"; lit "contains"; lit "if"; lit "then"; lit "else"; lit "allOf"; lit "anyOf"; lit "oneOf"; lit "not"; lit "$ref"; lit "$dynamicRef"]
  | KAdditionalProperties => [lit "properties"; lit "patternProperties"]
  | KUnevaluatedProperties => [lit "properties"; lit "patternProperties"; lit "additionalProperties"; lit "if"; lit "then"; lit "else"; lit "dependentSchemas"; lit "allOf"; lit "anyOf"; lit "oneOf"; lit "not"; lit "$ref"; lit "$dynamicRef"]
  | KAdditionalItems => [lit "items"]
  | KUnevaluatedItems2019 => [lit "items"; lit "additionalItems"; lit "if"; lit "then"; lit "else"; lit "allOf"; lit "anyOf"; lit "oneOf"; lit "not"; lit "$ref"; lit "$recursiveRef"]
  | KUnevaluatedProperties2019 => [lit "properties"; lit "patternProperties"; lit "additionalProperties"; lit "if"; lit "then"; lit "else"; lit "dependentSchemas"; lit "allOf"; lit "anyOf"; lit "oneOf"; lit "not"; lit "$ref"; lit "$recursiveRef"]
  | KMaxContains => [lit "contains"]
  | KMinContains => [lit "contains"; lit "maxContains"]
  | KContentSchema => [lit "contentMediaType"]
  | _ => []
  end.
Definition depends_on (c : kwclass) : list pystr :=
  match c with Std c => std_depends c | Unknown _ => [] end.

(** catalog/_2020_12.py:56-78 (and the same classes in _2019_09.py, _next.py) *)
Definition vocab_validation : list stdclass :=
  [KType_; KEnum; KConst; KMultipleOf; KMaximum; KExclusiveMaximum; KMinimum; KExclusiveMinimum; KMaxLength; KMinLength; KPattern; KMaxItems; KMinItems; KUniqueItems; KMaxContains; KMinContains; KMaxProperties; KMinProperties; KRequired; KDependentRequired].

(** catalog/_2020_12.py:85-94, format (80-83) and content (96-101) *)
Definition vocab_metadata : list stdclass :=
  [KFormat; KTitle; KDescription; KDefault; KDeprecated; KReadOnly; KWriteOnly; KExamples; KContentMediaType; KContentEncoding; KContentSchema].

(** catalog/_2020_12.py:18-112: the classes available to a schema of the
    2020-12 metaschema *)
Definition dialect_2020_12 : list stdclass :=
  [KSchema_; KVocabulary_; KId_; KRef; KAnchor; KDynamicRef; KDynamicAnchor; KDefs; KComment_; KAllOf; KAnyOf; KOneOf; KNot; KIf; KThen; KElse; KDependentSchemas; KPrefixItems; KItems; KContains; KProperties; KPatternProperties; KAdditionalProperties; KPropertyNames; KUnevaluatedItems; KUnevaluatedProperties; KType_; KEnum; KConst; KMultipleOf; KMaximum; KExclusiveMaximum; KMinimum; KExclusiveMinimum; KMaxLength; KMinLength; KPattern; KMaxItems; KMinItems; KUniqueItems; KMaxContains; KMinContains; KMaxProperties; KMinProperties; KRequired; KDependentRequired; KFormat; KTitle; KDescription; KDefault; KDeprecated; KReadOnly; KWriteOnly; KExamples; KContentMediaType; KContentEncoding; KContentSchema].

(** catalog/_2019_09.py:19-108 *)
Definition dialect_2019_09 : list stdclass :=
  [KSchema_; KVocabulary_; KId_; KRef; KAnchor; KRecursiveRef; KRecursiveAnchor; KDefs; KComment_; KAllOf; KAnyOf; KOneOf; KNot; KIf; KThen; KElse; KDependentSchemas; KItems2019; KAdditionalItems; KUnevaluatedItems2019; KContains; KProperties; KPatternProperties; KAdditionalProperties; KUnevaluatedProperties2019; KPropertyNames; KType_; KEnum; KConst; KMultipleOf; KMaximum; KExclusiveMaximum; KMinimum; KExclusiveMinimum; KMaxLength; KMinLength; KPattern; KMaxItems; KMinItems; KUniqueItems; KMaxContains; KMinContains; KMaxProperties; KMinProperties; KRequired; KDependentRequired; KFormat; KTitle; KDescription; KDefault; KDeprecated; KReadOnly; KWriteOnly; KExamples; KContentMediaType; KContentEncoding; KContentSchema].

(** catalog/_next.py:19-113 *)
Definition dialect_next : list stdclass :=
  [KSchema_; KVocabulary_; KIdNext; KRef; KAnchor; KDynamicRef; KDynamicAnchor; KDefs; KComment_; KAllOf; KAnyOf; KOneOf; KNot; KIf; KThen; KElse; KDependentSchemas; KPrefixItems; KItems; KContains; KProperties; KPatternProperties; KAdditionalProperties; KPropertyNames; KUnevaluatedItems; KUnevaluatedProperties; KType_; KEnum; KConst; KMultipleOf; KMaximum; KExclusiveMaximum; KMinimum; KExclusiveMinimum; KMaxLength; KMinLength; KPattern; KMaxItems; KMinItems; KUniqueItems; KMaxContains; KMinContains; KMaxProperties; KMinProperties; KRequired; KDependentRequired; KFormat; KTitle; KDescription; KDefault; KDeprecated; KReadOnly; KWriteOnly; KExamples; KContentMediaType; KContentEncoding; KContentSchema].

(** get_kwclass, vocabulary/__init__.py:93-108, for a metaschema providing the
    classes [d]: the class registered under the key, else an unknown-keyword
    class.  Making the latter calls [type] with a name containing the key
    (lines 102-106): a key that is the empty string raises IndexError
    ([key[0]]), and [type] itself refuses names that have no UTF-8 form, that
    is, with a lone surrogate (UnicodeEncodeError), and names with a null
    character (ValueError). *)
Definition surrogate (c : N) : bool := ((55296 <=? c) && (c <=? 57343))%N.
Definition name_class (k : pystr) : res kwclass :=
  match k with
  | [] => Exn EIndex
  | _ => if existsb surrogate k then Exn EUnicode
         else if existsb (N.eqb 0) k then Exn EValue
         else Ok (Unknown k)
  end.
Fixpoint find_class (d : list stdclass) (k : pystr) : option stdclass :=
  match d with
  | [] => None
  | c :: r => if str_eqb (std_key c) k then Some c else find_class r k
  end.
Definition get_kwclass (d : list stdclass) (k : pystr) : res kwclass :=
  match find_class d k with
  | Some c => Ok (Std c)
  | None => name_class k
  end.
