# Formal model of Mubelotix/email-parser in Rocq (Coq 8.16.1)

## Trusted base

* Coq's kernel (and `coqchk`), the stdlib modules used (`List`, `NArith`, `Arith`, `String`, `Ascii`, `Permutation`, `Lia`).
* `Print Assumptions` is placed under every property theorem; all are closed under the global context (see "Assumptions" below).
* The reading of the Rust source: nothing here executes /repo. Every definition cites file and lines.
  `RepoTests.v` replays the repository's own unit-test vectors on the model (a test of the reading, not a proof).

## How the code is modelled

* A `u8` is an `N`, a `&[u8]`/`&str`/`Cow<str>`/`Vec<u8>` is a `list N` (`bytes`). Theorems that need it assume every element `< 256`.
* A Rust call result is `res A := Ok a | Err e | Crash c`. `Err` is Rust's `Err`. `Crash` collects everything that is
  not a value of the Rust type: `Panic` (arithmetic overflow in checked builds, index out of range, `unreachable!`,
  failed `debug_assert`), `Undefined` (an unchecked access out of range, or `from_utf8_unchecked` on invalid UTF-8),
  `OutOfFuel` (an unbounded loop or recursion that would not stop). `if let Ok(..)`, `while let Ok(..)`, `match_parsers`
  and `optional` catch `Err` only; a `Crash` goes through everything.
* Loops are recursion on fuel `S (length input)`; running out is `Crash OutOfFuel`, so "never crashes" includes termination.
* `env` gathers what is fixed outside the source text: the cargo features, whether overflow/debug checks are on, the
  `textcode` crate (an arbitrary function per charset) and the iteration order of `HashMap` (an arbitrary permutation).
  Every theorem quantifies over all `env`s (with `env_ok` where the permutation or textcode contract is needed).
* `Cow` borrowed/owned and addresses are abstracted in the parser model; `StringCow.v` models `string.rs` with addresses, and
  `ZeroCopy.v` all parsers of a mail and `ZeroParts.v` those of its parts with `Cow` results (C62 and C63 tie the two together).

## Files

| file | models |
|---|---|
| Base.v | error.rs, result/crash monad, env (features), u8 arithmetic, Vec operations |
| Utf8.v | `std::str::from_utf8` validity |
| CharSets.v | parsing/character_sets.rs |
| Combinators.v | parsing/combinators.rs |
| Whitespace.v | parsing/whitespaces.rs, `quoted_pair` |
| QuotedString.v | parsing/quoted_string.rs |
| Base64.v, QuotedPrintable.v, Percent.v, EncodedWord.v | parsing/mime/{base64,quoted_printables,percent_encoding,encoded_headers}.rs |
| Common.v | parsing/common.rs |
| Time.v | time.rs, parsing/time.rs |
| Address.v | address.rs, parsing/address.rs |
| MimeFields.v | mime.rs, parsing/mime/mime_fields.rs |
| Fields.v | parsing/fields.rs |
| Message.v | parsing/message.rs |
| Entity.v | parsing/mime/{entity,multipart}.rs |
| Email.v | email.rs |
| StringCow.v | string.rs, `into_owned` |
| Display.v | error.rs (`Display`), mime.rs (`is_composite_type`), email.rs (`TryFrom`) |
| Timed.v | all parsers of the builds without mime once more, each with a count of its elementary operations (what counts as one is said at the top of the file) |
| TimedCodec.v | the codecs and the search for boundaries once more, with the same kind of count; Vec::insert, remove and drain cost the bytes they move |
| ZeroCopy.v | all parsers of a mail once more, with `Cow<str>` results: slices of the mail by address, joined by `add_string` |
| ZeroParts.v | `raw_entity`, `header_part_owned`, `parse_multipart` and `entity` once more, with `Cow` results |
| TimedMime.v | all parsers of the builds with mime and the entities once more, with the same kind of count |

Specifications (no parser of the model is mentioned in them):

| file | contents |
|---|---|
| Rfc5322.v | grammar of RFC 5322 as relations text / value; date ranges |
| Rfc2047.v, RfcFields.v | encoded words; the header grammar of RFC 5322, 2045, 2183, 2231 |
| CodecSpec.v | base64, quoted-printable, Q and percent codecs, charsets |
| EmailSpec.v | bodies, transfer encodings, the email of a list of fields, why there is none, the dates of an email |
| MultipartSpec.v, EntitySpec.v | multipart texts; parts and what an entity means |
| Complete.v, CompleteFields.v | unambiguous texts: the part of the grammar that is read the way it is written |
| LocalSpec.v | header blocks, emails equal but for the body, capitalisation of names, malformed lines |
| Writers.v | folded texts, quoting, and written forms of words, addresses, dates and identifiers |
| EncodedSpec.v | written encoded words, texts with encoded words and what they stand for |
| ParamSpec.v | equality up to the order of parameters; written parameters and continuations |
| StringSpec.v | memory, slices, texts in memory |
| TextSpec.v | the strings of an email, of a part, of an entity |
| RegularSpec.v | conforming headers without the oddities the crate rejects; values equal up to the cutting of words |
| LessSpec.v | a build with fewer header features; what becomes of the headers and of the email |
| MailSpec.v | the emails that a build without mime can return |
| MimeMailSpec.v | the emails that a build with mime can return |
| ZeroSpec.v | emails with strings in memory and the same emails in bytes; the strings of an email; when a text is kept together |
| ZeroPartsSpec.v | the same for the parts of an entity; entities reached without decoding; the last encoding header |
| SizeSpec.v | the bytes and the strings of an email and of a part (C64) |
| GrowSpec.v | the parts n levels below an entity, the bytes of their values, the bytes of the leaves of a tree (C65) |
| MimeRfcSpec.v | RFC 2045 and RFC 2183 headers as lexical tokens, the value of an attribute, compact headers (C66) |
| Rfc2046Spec.v | multipart bodies of RFC 2046 5.1.1 with padding, and what becomes of their parts when padded delimiters are text (C67) |
| UnencodedSpec.v | the parts below a part, trees in which no multipart is transfer-encoded (C68) |
| DisplaySpec.v | the table of all messages of errors (C69) |
| TreeWorkSpec.v | the work of reading an entity and all parts below it, the weight of an entity (C70) |
| ObsoleteSpec.v | texts without a numeric zone or a recent year; the obsolete dates of RFC 5322 4.3 (C71) |
| InertSpec.v | an email with another sender and other unknown fields, the headers with identifiers (C72) |
| TruncSpec.v | unfinished headers, what is left of an email (C73) |
| NeverSpec.v | header lines of any text, the part after the headers, a name used twice (C74) |
| LoneSpec.v | CR and LF in pairs, the bytes of headers, misplaced bytes (C75) |
| ByLineSpec.v | the lines that are no header of the grammar of their name (C76) |
| TreeSpec.v | MIME trees, how they are written, how they are read, which can be written |
| LineSpec.v | header lines, blocks of them, equal order per name, emails with other unknown headers |
| CutSpec.v | cutting of any text at first occurrences of delimiters |
| ExactSpec.v | the texts of whole messages, for builds without mime |
| PhraseSpec.v | the headers with phrases, for builds with mime: words, mailboxes, groups and keywords read from left to right, an encoded word taking precedence over an atom |
| MimeExactSpec.v | the texts of whole messages, for builds with mime: parameters read from left to right, and the MIME headers that are cut at a fold |
| DebugSpec.v | the release profile of a build, headers with a parameter in 256 segments |
| PartExactSpec.v | the headers and texts of parts, and the trees of parts, for any text |
| RefuseSpec.v | why a mail, a part, an entity is refused, with the error |
| ShownSpec.v | what a header makes of an email; headers as programs write them |
| Envs.v | `env_ok`: assumptions on the externals; concrete environments |

Proofs: Post.v (Hoare-style combinators), CodecArith, Base64Proofs, QPProofs, PercentProofs, SoundBase, SoundTime,
SoundAddr, TagNoCase, ParamProofs, SoundFields, SoundMessage, MultipartProofs, EntityProofs, EmailProofs, EnvOk,
SafetyProofs, PhraseFacts, PhraseBox, PhraseHeads, DebugFacts, DebugPanic, DebugMore, PartExactFacts, PartExactTrees, RefuseFacts, RefuseParts, ShownFacts, ShownWriters, MessageFacts, GrammarFacts, Steps, MultipartRound, EntityFacts,
Forward* (the parsers accept what the grammar describes), HeaderFacts, Local, LocalFacts (the parsers depend on a line and the
bytes after it only), RecaseFacts, KeptFacts, WriteFacts, WriteAddr, WriteRest, Utf8Facts,
EncodedFacts, OrderFacts, ParamWrite, VersionFacts, MimeRefute, StringFacts, TextFacts, LimitFacts, RegularFacts, LinedFacts, SameFacts, LessFacts, NeatFacts, RangeFacts, RangeWrite, TidyFacts, TraceFacts, TreeFacts, LineFacts, CutFacts, LessExact, KeenFacts, ExactFacts, MimeExactParts, MimeExactBack, MimeExactHeads, MimeExactFields, MimeExactFacts, TimedErase (the counting parser returns what the parser returns), TimedFacts, TimedWords, TimedAddr, TimedBox, TimedVals, TimedHead, TimedMail (upper bounds), TimedPays (lower bound), TimedCodecFacts, TimedCodecLow, TimedSearch (codecs and multipart, upper and lower bounds), TimedMimeErase, TimedMimeFacts, TimedMimeBox, TimedMimeParam, TimedMimeHead, TimedMimeMail (upper bounds with mime), TimedMimeLow (lower bounds with mime), MimeRange, MimeRangeWrite (the values returned with mime, both directions). The theorems of the properties are in Prop*.v.

## Per-property plan

| id | what is modelled / how it is proved |
|---|---|
| C01, C02 | whole-crate model; a safety predicate (`Ok` consuming a prefix or `Err`, never `Crash`) proved compositionally parser by parser |
| C03, C04 | refuted: explicit families of inputs, symbolic execution of the model |
| C05-C08 | index-level in-place model of base64; refinement to a list-level spec; induction by groups of three |
| C09-C12 | index-level in-place model of quoted-printable; refinement to a one-pass spec |
| C13 | right-to-left in-place model; induction on the suffix; refutation witness |
| C14, C15 | encoded word model; spec encoders; induction on word lists |
| C16, C22 | consumption invariants of `fields` |
| C17 | loop of `body` against a line-splitting spec, both directions |
| C18-C20, C44 | fold over fields against a declarative spec |
| C21 | `tag_no_case` characterised by ASCII case folding; lifted to every header parser |
| C23-C25 | grammar relation for dates; soundness, range and round-trip proofs |
| C26 | inductive RFC 5322 grammar relations in a separate spec file; soundness of each parser |
| C27-C31 | printers in the spec file; round trips |
| C32 | string-validity invariants from the soundness results |
| C33, C34 | multipart splitting spec; refutation witness |
| C35-C37 | continuation model with an arbitrary iteration order; permutation proofs; refutation witness |
| C38, C39 | direct functional characterisation |
| C40 | extension lemma: parsers are insensitive to what follows an empty line |
| C41 | refuted by witnesses; exactly what is recognised: the inversion lemmas of C52 and C53, for phrases with encoded words PhraseSpec/PhraseFacts/PhraseBox/PhraseHeads, read from left to right with the following text in view; from the RFC grammar to its unambiguous part (merging adjacent atoms), then the forward lemmas |
| C42 | the header of a name not known to the smaller build is read as unknown header if it has no blank line, by the forward lemmas; conversely by soundness, as unstructured text has no blank line; header lines of a text are unique |
| C43 | address-level model of `add_string`/`add_str` |
| C44, C45 | outcomes of `parse`, `raw_entity` and `entity` characterised by the specifications |
| C46 | as C32; refuted with mime by an encoded line end |
| C47 | inversion of every parser into conditions on values (only); a text is written for every value, unknown headers with a blank at the end so that no structured parser accepts them (every) |
| C48 | forward lemmas for the headers of parts, splitting of multiparts, mutual induction on trees and their parts; writers with base64 bodies and boundaries longer than the parts |
| C49 | locality of every header parser (Local.v): the text after a header line has no influence on it; induction on the lines; the components of an email depend on the fields of one name |
| C50 | C49, and fields that are unknown are in no other component |
| C51 | the steps of `many` are the sections; first occurrence by find_sub; for C34, induction on the sections: a delimiter of the text lies before the closing delimiter |
| C52 | soundness and tidiness give that a header read is one of the grammar; a structured parser stops before a fold only after a line of blanks (KeenFacts), so that it stops at the header's own end; conversely the forward lemmas |
| C53 | as C52, with inversion lemmas for the parameters (MimeExactParts, MimeExactBack) and for phrases (PhraseFacts, PhraseBox, PhraseHeads), which need the text after each parameter or word in view; where a MIME header or Keywords stops before a fold, the rest is no header and the mail is rejected. Restricted to release builds (in a debug build segment 255 crashes, C03); C55_exact carries it over to debug builds |
| C54 | the counting parser is a second model of the same functions, tied to the first by an erasure theorem; the work of each value parser is bounded by the *reach* of the text (the bytes up to the end of the folded line), so that the up to twenty attempts on one header cost a constant factor; parsers that are tried again after a failure are charged to the bytes they have looked at. The constant is existential: it depends on how operations are weighed. |
| C55 | `unless_crash` (equal, or the first is a crash) is preserved by every combinator, so a walk through all parsers suffices; the soundness judgement of Post.v with the crash predicate "the input has a full header" locates the panic; counting of indexes gives the 256 semicolons |
| C56 | for a header with one of the five names the part parser agrees with the message parser, whatever the order of the attempts, so the header lemmas of C53 apply; any other header is unknown. Then as C53 for the sequence of headers, and induction on trees with the exact cut of C51 |
| C57 | C52, C53 and C56 say how a text is read; the specification of the errors of a list of fields (C44) is invariant under the order of parameters; base64 as C07, following the state in which the data end. C18_text, C19_text, C20_text are the cases of single errors, in terms of the text |
| C58 | C49_split cuts the mail before the header; the header is read by the parser of its name only (the others fail on the name, as in C41); a field of the list shows in the email because singular fields occur once (C18). Adding and removing: the list of fields with and without the header, compared field by field. The mail-level statements of C12, C24, C27, C30, C31 and C36 follow from the writers. |
| C59 | Counting versions of the codecs with the same results. Upper bounds: number of turns times the length of the data, which grows by at most five bytes a turn; base64: the index only moves forward. Lower bounds: induction on the number of escapes. Boundaries without CR: a comparison stops at the next CR, and the bytes up to it are charged once. |
| C60 | As C54, with weights: the work of a value parser is bounded by a square or a cube of the reach of the text. A phrase decodes each encoded word once, at most the square of its length (C59), so a phrase is quadratic; a list of addresses tries a phrase for each address, so it is cubic. Sums over headers: the reaches add up to the length. Lower bound: a family of texts that are read in two ways, since the quotes of encoded words count in one reading only; each reading is followed by symbolic execution on a text with an unknown rest. |
| C61 | Only: the soundness theorem (SoundMessage.v) gives grammar derivations for every header; each is mapped to a condition on its value, decoded texts being UTF-8 by the decoders. Every: each value is written as one base64 encoded word per word, each parameter as one percent-encoded segment, each header once, and read back by the forward lemmas; emails made of the same headers are the same up to the order of parameters. |
| C62 | `does`: a parser of ZeroCopy.v and its model in bytes stop at the same place with related results; preserved by every combinator. Text that is read without a fold or a pair is the slice from its start to its end, and joining two such slices gives one, as they are adjacent (C43); the exact condition keeps track of the bytes dropped before the first and after it |
| C63 | the relation of C62 for the headers of a part, with the input of the part as the place; a part is a prefix of what is left of the value (boundary search), so its address follows; slices of parts lie in the slice of the value, by induction on the nesting in the mail; `into_owned` turns related strings into copies |
| C64 | the volume of the value of every grammar relation is bounded by its text (induction on the grammar), maps have distinct keys, volumes add up over fields and parts; two families of inputs reach the factors 2 and 3 |
| C65 | induction on the depth; ASCII bytes as the measure that decreases; the lower bound writes a tree of C48 in which the content of each level is quoted-printable with its hyphens hidden |
| C66 | the recognised headers are lexed by induction on their grammar; compact texts are texts of the forward lemmas; a scanner for quotes and comments refutes conformance of dated dispositions |
| C67 | the first delimiter line followed by CR or a hyphen is found by induction on the parts: a clean part cannot share bytes with a delimiter because the boundary has no CR, and a padded delimiter extends the text before it; the cut of C51 is then unique |
| C68 | induction on the depth; a part that is a multipart is a suffix of its text, so the texts of the parts of a level add up to less than the text above; only leaves grow |
| C69 | the reasons of C57 (through C55 for builds with overflow checks) are listed case by case in a table of messages, which no two errors share |
| C70 | induction over the tree of parts with the weight of each part bounded by the text it was cut from (C64), the delimiters paying for the constants; the work of each call is C60 |
| C71 | the date grammar (C25) needs a sign and a year word; by C22 the header is read as an unknown one, which leaves the mail without a date (C19) |
| C72 | locality of header reading (C41, C71): a header no reader of its name accepts is read as unknown whatever stands around it; case analysis on the final assembly |
| C73 | what the loop over the headers leaves ends with a line end (C16); splitting of the headers (C49) and monotonicity of the assembly in the list of fields; induction on the lines of a body |
| C74 | every header parser without mime halts at the end of its line (fields_stop_well, line_taken) or is text that takes the whole line; hence one field per line, by induction on the lines; then the errors of the assembly (assemble_spec); for parts, each line is read by the parser of a mail or as an unrecognised header (named_same, unnamed_part), then the errors of the content (raw_cases) |
| C75 | the texts of headers (field_hlines) and bodies (body_text) are made of line ends and other characters, by induction; the parser of the headers always succeeds (fields_total) and stops before the misplaced byte, where the body must start |
| C76 | one step of the header loop per line: the parser of a line stops at its end whatever follows (legible, from C74), and what it reads is the header of the exact grammar (field_exact, from C52), which is unique; the unknown headers then by induction on the lines, the late trace headers among them since no known name is a name of trace; with mime the same from mime_legible (C74) and the grammar of C53; for parts from part_legible (C74) and the grammar of C56 |

## Wrong programs

`seeded/LOG.jsonl` records edits of the model, each made in a scratch copy in the way of a realistic bug. After an edit every
lemma whose proof no longer compiles is admitted and the build goes on. `theorems_failed` are the theorems of the property files
whose proof then rests on an admitted lemma; `theorems_evaluated` says how many were looked at and `property_files` which files
(`all`, or a selection where only those were rebuilt). What this shows and what it does not:

* a theorem that is not listed is still proved of the wrong program, so a claim that the edit breaks must have a theorem in
  `theorems_failed_for_broken_claim`; where it had none the theorem was tightened (`theorems_tightened`) or the claim was found not to be broken;
* a theorem that is listed has lost its proof; that alone does not show that its statement is false of the wrong program, since
  a proof script can break for other reasons;
* the runs were made at different commits: names such as `C41_message_partial` are those of the time of the run;
* the examples and RepoTests.v are left out of the runs.

## Assumptions

`Print Assumptions` reports "Closed under the global context" for every theorem of the Prop*.v files: no axiom, neither of the
standard library nor of this development. The hypotheses are in the statements: `env_ok` (Envs.v) says what is assumed of the
code outside the repository.

## Not modelled

* The `textcode` crate and `std`: an arbitrary function, respectively the documented behaviour of the operations used (UTF-8
  validation, `HashMap` up to the iteration order, slices, integer parsing by hand-written loops in the repository).
* Memory beyond the addresses of slices (StringCow.v, ZeroCopy.v, ZeroParts.v): allocation failure, aliasing rules. Stack size is
  represented by the recursion fuel only (C04); running time by the counts of Timed.v, TimedCodec.v and TimedMime.v, with
  amortised constant cost for `Vec::push`, `String::push_str` and without the cost of allocation and of dropping values.
* `derive`d code (Debug, Clone, PartialEq), the empty `std::error::Error` impl, the `benches` and `tests` directories, and the
  `prelude` re-exports.
