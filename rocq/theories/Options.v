(** linebreak/options.go and New: the settings of a line breaker. *)
From Verif Require Import Base Arith Unicode Split Width Hyph Dict Cache Lang PatUs KP Nodes.

Section Options.
Variable A : arith.
Notation F := (F A).
Notation fZ := (fZ A).

(** Models [Option] (options.go:9-10) and the functions that make options (options.go:38-113). A nil word breaker is
    [None]; a nil measurer panics when it is called. *)
Inductive lbOption :=
| WithTolerance (t : F)
| WithScaleFactor (x : F)
| WithWordBreak (b : bool)
| WithMeasurer (f : list rune -> go F)
| WithHyphenator (f : option splitFunc)
| WithPunctuator (f : option splitFunc)
| WithHyphenPenalty (p : F)
| WithRenderHyphens (b : bool)
| WithLooseness (q : Z).

(** [hyph], [punct]: the word breakers that New uses when none is set (linebreaker.go:54-67). *)
Variable hyph punct : splitFunc.

(** Models [defaultDemerits], [defaultFormatterOptions] and the default values of [defaultOptions] (options.go:114-163).
    A word breaker that is not set is replaced by the default one from the start. *)
Definition defaultMeasurer (v : list rune) : go F := let! w := widths v [] in Ret (fZ w).
Definition defaultLopts : lopts A := {|
  l_search := mkKopts (fTolerance A) (fZ 100) (fZ 10) (fZ 100) (fZ 200);
  l_measurer := defaultMeasurer; l_scale := fZ 1; l_wordBreak := true; l_renderHyphens := true;
  l_hyphenPenalty := fZ 300; l_hardHyphenPenalty := fZ 200; l_punctuationPenalty := fZ 400;
  l_hyphenator := hyph; l_punctuator := punct; l_minHyphenate := 4; l_glueStretch := fZ 6 |}.

(** What an option does (options.go:38-113); looseness is read once, by [breakPoints] (knuth_plass.go:117),
    which returns nil whatever its value. *)
Definition applyOption (o : lopts A) (opt : lbOption) : lopts A :=
  match o with
  | mkLopts (mkKopts tol bad li fl fi as s) ms sc wb rh hp hh pp hf pf mi gl =>
      match opt with
      | WithTolerance t => mkLopts (mkKopts t bad li fl fi) ms sc wb rh hp hh pp hf pf mi gl
      | WithScaleFactor x => mkLopts s ms x wb rh hp hh pp hf pf mi gl
      | WithWordBreak b => mkLopts s ms sc b rh hp hh pp hf pf mi gl
      | WithMeasurer f => mkLopts s f sc wb rh hp hh pp hf pf mi gl
      | WithHyphenator f => mkLopts s ms sc true rh hp hh pp (match f with Some f => f | None => hyph end) pf mi gl
      | WithPunctuator f => mkLopts s ms sc wb rh hp hh pp hf (match f with Some f => f | None => punct end) mi gl
      | WithHyphenPenalty p => mkLopts (mkKopts tol bad li p fi) ms sc wb rh p hh pp hf pf mi gl
      | WithRenderHyphens b => mkLopts s ms sc wb b hp hh pp hf pf mi gl
      | WithLooseness _ => o
      end
  end.
(** Models [defaultOptions] (options.go:114-127). *)
Definition withOptions (opts : list lbOption) : lopts A := fold_left applyOption opts defaultLopts.
End Options.
Arguments WithTolerance {A}. Arguments WithScaleFactor {A}. Arguments WithWordBreak {A}. Arguments WithMeasurer {A}.
Arguments WithHyphenator {A}. Arguments WithPunctuator {A}. Arguments WithHyphenPenalty {A}. Arguments WithRenderHyphens {A}.
Arguments WithLooseness {A}.

(** The default word breakers: [hyphenator.New(WithMinLength(l.minHyphenate))] and [punctuator.New()]
    (linebreaker.go:57-66). The dictionary is that of the pattern file of American English. *)
Definition defaultHyphenator (u : unicode) : splitFunc := breakWord u (loadFile u (defaultName usName) us_file) (mkHopts 4 2 2).
Definition defaultPunctuator (u : unicode) : splitFunc := punctuatorBreakWord u.

(** Models [New] (linebreaker.go:46-74). *)
Definition newLineBreaker (A : arith) (u : unicode) (opts : list (lbOption A)) : go (breaker A) :=
  newBreaker A (withOptions A (defaultHyphenator u) (defaultPunctuator u) opts).
