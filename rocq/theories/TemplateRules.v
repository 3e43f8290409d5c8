(** Model of the library's own rule templates and of how a template becomes a row of patterns: rule.rs:313-316 [Rule::add],
    347-358 [add_rules], rules/mod.rs:9-22, pseudo.rs:1054-1088, selector/mod.rs:15-17, pattern.rs:194-199. *)
From Verif Require Import Base Utils Engine Regex Parse Template RegexText.

(** A pattern of a queue as the parser of Parse.v uses it; [None]: the text of a regular expression is not one that
    [regex_of] reads (in the code [RegExp::get_rule] then panics when the pattern is first tried, pattern.rs:395). *)
Definition item_pat (wide_digit : char -> bool) (i : qitem) : option pat :=
  match i with
  | QChar c => Some (PChar c)
  | QVec s => Some (PVec s)
  | QNamed PnIdentity _ => Some PIdentity
  | QNamed PnSpaces _ => Some PSpaces
  | QNamed PnAttrKey _ => Some PAttrKey
  | QNamed PnNth _ => Some PNth
  | QNamed PnRegexp raw => match regex_of (is_d wide_digit) raw with Some r => Some (PRegex r) | None => None end
  | QNamed PnSelector _ => Some PNested
  end.
Fixpoint items_pats (wide_digit : char -> bool) (l : list qitem) : option (list pat) :=
  match l with
  | [] => Some []
  | i :: l' =>
      match item_pat wide_digit i, items_pats wide_digit l' with
      | Some p, Some ps => Some (p :: ps)
      | _, _ => None
      end
  end.
Definition template_pats (wide_digit : char -> bool) (t : str) : option (list pat) :=
  match get_queues t with Ok q => items_pats wide_digit q | _ => None end.

(** The [context] texts in the order of [init] (rules/mod.rs:14-20, pseudo.rs:1054-1088): class.rs:11, id.rs:11, name.rs:9,
    attr.rs:11, pseudo.rs:28, 71, 431, 437, 725, 382, 388, 712, 719, 655, 662, 768, 838, 857, 901, 919, constants.rs:24-27,
    all.rs:8. *)
Definition lib_templates : list (kind * str) := [
  (KClass, lit ".{identity}");
  (KId, lit "#{identity}");
  (KName, lit "{identity}");
  (KAttr, lit "[{spaces}{attr_key}{spaces}{regexp#(?:([*^$~|!]?)=\s*(?:'((?:\\?+.)*?)'|([^\s\]'""<>/=`]+)|""((?:\\?+.)*?)""))?#}{spaces}]");
  (KRoot, lit ":root");
  (KEmpty, lit ":empty");
  (KFirstChild true, lit ":first-child");
  (KFirstChild false, lit ":last-child");
  (KOnlyChild, lit ":only-child");
  (KNthChild true, lit ":nth-child({spaces}{nth}{spaces})");
  (KNthChild false, lit ":nth-last-child({spaces}{nth}{spaces})");
  (KFirstOfType true, lit ":first-of-type");
  (KFirstOfType false, lit ":last-of-type");
  (KNthOfType true, lit ":nth-of-type({spaces}{nth}{spaces})");
  (KNthOfType false, lit ":nth-last-of-type({spaces}{nth}{spaces})");
  (KOnlyOfType, lit ":only-of-type");
  (KNot, lit ":not({spaces}{selector}{spaces})");
  (KContains, lit ":contains({spaces}{regexp#(?:'((?:\\?+.)*?)'|""((?:\\?+.)*?)""|([^)\s'""<>/=`]*))#}{spaces})");
  (KHas, lit ":has({spaces}{selector}{spaces})");
  (KChecked, lit ":checked");
  (KHeader, lit ":header");
  (KInput, lit ":input");
  (KSubmit, lit ":submit");
  (KAll, lit "*")].
(** selector/mod.rs:16-17 *)
Definition splitter_template : str := lit "{regexp#(\s*[>,~+]\s*|\s+)#}".
(** pattern.rs:197: the text given to [RegExp] by [Nth::matched]. *)
Definition nth_text : str := lit "^(?:([-+])?([1-9]\d+|[0-9])?n(?:\s*([+-])\s*([1-9]\d+|[0-9]))?|([-+])?([1-9]\d+|[0-9]))".
