{
 "claims": [
  {
   "property": "C01",
   "status": "proved",
   "theorems": [
    "C01_parse_total",
    "C01_checked_build",
    "C01_parse_message_total"
   ],
   "note": "Every env (feature set, textcode, hash order) satisfying env_ok; the checked build with mime can only crash with one overflow panic (C01_checked_build)."
  },
  {
   "property": "C02",
   "status": "proved",
   "theorems": [
    "C02_entity_total",
    "C02_raw_entity_total",
    "C02_checked_build"
   ],
   "note": "RawEntity::parse and raw_entity; checked build likewise limited to one overflow panic."
  },
  {
   "property": "C03",
   "status": "proved",
   "theorems": [
    "C03_no_panic_refuted",
    "C03_every_overlong_parameter"
   ],
   "note": "The literal claim (no mail panics an overflow-checked build) is false; refuted for every such build with mime, and every mail with a 256-segment parameter among readable headers is shown to panic. What does hold (no other crash) is C01/C02."
  },
  {
   "property": "C04",
   "status": "proved",
   "theorems": [
    "C04_bounded_depth_refuted",
    "C04_depth_is_bounded_by_nesting"
   ],
   "note": "The literal claim (constant recursion depth) is false: for every depth there is an accepted mail whose comment needs more. The depth needed is bounded by the number of opening parentheses."
  },
  {
   "property": "C05",
   "status": "proved",
   "theorems": [
    "C05_base64_round_trip"
   ],
   "note": "All byte strings, every build configuration."
  },
  {
   "property": "C06",
   "status": "proved",
   "theorems": [
    "C06_base64_ignores_foreign_bytes"
   ],
   "note": "Noise inserted or deleted anywhere; iterating gives any foreign bytes."
  },
  {
   "property": "C07",
   "status": "proved",
   "theorems": [
    "C07_base64_decoding",
    "C07_errors"
   ],
   "note": "Decoder equals an independent symbol-stream decoder, including which inputs are refused."
  },
  {
   "property": "C08",
   "status": "proved",
   "theorems": [
    "C08_base64_shape"
   ],
   "note": "Lines are in fact at most 72 characters."
  },
  {
   "property": "C09",
   "status": "proved",
   "theorems": [
    "C09_quoted_printable_round_trip"
   ],
   "note": "All byte strings."
  },
  {
   "property": "C10",
   "status": "proved",
   "theorems": [
    "C10_quoted_printable_shape"
   ],
   "note": "Character set, line length and no trailing blank, for each line of the output."
  },
  {
   "property": "C11",
   "status": "proved",
   "theorems": [
    "C11_quoted_printable_decoding",
    "C11_q_decoding"
   ],
   "note": "Body and header (Q) decoders equal independent one-pass decoders for all inputs."
  },
  {
   "property": "C12",
   "status": "proved",
   "theorems": [
    "C12_transfer_decoding",
    "C12_unknown_encoding_refused",
    "C12_base64_body_back",
    "C12_quoted_printable_body_back",
    "C12_message_value",
    "C12_mail"
   ],
   "note": "iff with the independent codec specification; encoder output comes back; the value inside an accepted mail."
  },
  {
   "property": "C13",
   "status": "proved",
   "theorems": [
    "C13_percent_decoding",
    "C13_percent_round_trip",
    "C13_percent_decoded_once_refuted"
   ],
   "note": "First two sentences proved; the last sentence (decoded exactly once without proviso) is false of the code and refuted by a witness."
  },
  {
   "property": "C14",
   "status": "proved",
   "theorems": [
    "C14_encoded_word_back",
    "C14_every_text_written",
    "C14_encoded_name_back"
   ],
   "note": "Every non-empty UTF-8 text (the code refuses an empty encoded text), B and Q, any capitalisation and language; alone and as a display name."
  },
  {
   "property": "C15",
   "status": "proved",
   "theorems": [
    "C15_spacing",
    "C15_subject",
    "C15_unknown"
   ],
   "note": "Subject and unknown headers; any folding white space, any sequence of encoded words and plain words (plain words without \"=?\")."
  },
  {
   "property": "C16",
   "status": "proved",
   "theorems": [
    "C16_no_byte_lost"
   ],
   "note": "Every accepted message, every build."
  },
  {
   "property": "C17",
   "status": "proved",
   "theorems": [
    "C17_body_iff",
    "C17_body_refused",
    "C17_message_body"
   ],
   "note": "iff on the body parser, plus the body of an accepted message."
  },
  {
   "property": "C18",
   "status": "proved",
   "theorems": [
    "C18_first_duplicate",
    "C18_repetition_rejected",
    "C18_text"
   ],
   "note": "iff: DuplicateHeader n is returned exactly when n is the first header to repeat."
  },
  {
   "property": "C19",
   "status": "proved",
   "theorems": [
    "C19_mandatory",
    "C19_missing_from",
    "C19_missing_date",
    "C19_missing_sender",
    "C19_text"
   ],
   "note": "Accepted messages and the three MissingHeader cases."
  },
  {
   "property": "C20",
   "status": "proved",
   "theorems": [
    "C20_faithful",
    "C20_text",
    "C20_any_reading"
   ],
   "note": "iff between Email::parse and the declarative email_of."
  },
  {
   "property": "C21",
   "status": "proved",
   "theorems": [
    "C21_header_names_case_insensitive",
    "C21_fields_case_insensitive"
   ],
   "note": "Any number of names changed at once, anywhere in the header block, for the whole Email: only the spelling of unknown header names may differ."
  },
  {
   "property": "C22",
   "status": "proved",
   "theorems": [
    "C22_malformed_kept",
    "C22_from_without_at_kept"
   ],
   "note": "Any header line no beginning of which is a structured header, in any header block; an explicit instance (From without @)."
  },
  {
   "property": "C23",
   "status": "proved",
   "theorems": [
    "C23_date_ranges",
    "C23_email_dates",
    "C23_day_at_least_one_refuted"
   ],
   "note": "Ranges proved for every date parsed and every date inside an accepted email; the stronger reading day >= 1 is false of the code and refuted (day 0)."
  },
  {
   "property": "C24",
   "status": "proved",
   "theorems": [
    "C24_mail",
    "C24_dates_back",
    "C24_every_date_written"
   ],
   "note": "Every date in range can be written (with any capitalisation, one- or two-digit day, with or without day name and seconds) and is read back; day name need not be the right one."
  },
  {
   "property": "C25",
   "status": "proved",
   "theorems": [
    "C25_dates_conform"
   ],
   "note": "Against an independent inductive grammar."
  },
  {
   "property": "C26",
   "status": "proved",
   "theorems": [
    "C26_mailbox",
    "C26_mailbox_list",
    "C26_group",
    "C26_address_list",
    "C26_message_id",
    "C26_path"
   ],
   "note": "Against an independent inductive grammar; includes paths and identifiers."
  },
  {
   "property": "C27",
   "status": "proved",
   "theorems": [
    "C27_from_mail",
    "C27_sender_mail",
    "C27_to_mail",
    "C27_cc_mail",
    "C27_bcc_mail",
    "C27_reply_to_mail",
    "C27_from_back",
    "C27_sender_back",
    "C27_to_back",
    "C27_cc_back",
    "C27_bcc_back",
    "C27_reply_to_back",
    "C27_every_mailbox_written",
    "C27_every_recipient_written"
   ],
   "note": "From, Sender, To, Cc, Bcc, Reply-To headers; lists of mailboxes and groups; every mailbox of printable text can be written."
  },
  {
   "property": "C28",
   "status": "proved",
   "theorems": [
    "C28_quoted_strings_back",
    "C28_every_text_quoted"
   ],
   "note": "Any choice of optional escapes."
  },
  {
   "property": "C29",
   "status": "proved",
   "theorems": [
    "C29_atom",
    "C29_dot_atom",
    "C29_quoted_string",
    "C29_message_id"
   ],
   "note": "Comments and folds per the RFC grammar, nested to any depth, on both sides."
  },
  {
   "property": "C30",
   "status": "proved",
   "theorems": [
    "C30_subject",
    "C30_comments",
    "C30_unknown",
    "C30_subject_mail"
   ],
   "note": "iff, for Subject, Comments and unknown headers; with mime, for values without encoded words (see C14, C15 for those)."
  },
  {
   "property": "C31",
   "status": "proved",
   "theorems": [
    "C31_message_id_mail",
    "C31_in_reply_to_mail",
    "C31_references_mail",
    "C31_message_id_back",
    "C31_in_reply_to_back",
    "C31_references_back"
   ],
   "note": "Message-ID, In-Reply-To and References headers."
  },
  {
   "property": "C32",
   "status": "proved",
   "theorems": [
    "C32_utf8",
    "C32_ascii",
    "C32_parts",
    "C32_entities"
   ],
   "note": "All strings of emails, parts and parsed entities. The types of the results in Rust are strings by construction; the theorem is about the unchecked conversions. Assumes that textcode returns valid UTF-8 (env_ok)."
  },
  {
   "property": "C33",
   "status": "proved",
   "theorems": [
    "C33_split_inverts_join",
    "C33_parts"
   ],
   "note": "For boundaries without CR (RFC 2046 forbids it); any number of parts, with errors of the parts carried over."
  },
  {
   "property": "C34",
   "status": "proved",
   "theorems": [
    "C34_any_text",
    "C34_ignored_iff",
    "C34_epilogue_ignored",
    "C34_epilogue_ignored_refuted"
   ],
   "note": "The literal claim is refuted (C34_epilogue_ignored_refuted); C34_ignored_iff gives the exact condition under which an epilogue is ignored, C34_any_text and C34_epilogue_ignored that two epilogues meeting it give the same result."
  },
  {
   "property": "C35",
   "status": "proved",
   "theorems": [
    "C35_email",
    "C35_raw_entity",
    "C35_entity",
    "C35_content_type",
    "C35_content_disposition"
   ],
   "note": "Whole emails, raw entities and entities in builds without overflow checks; single headers in every build (with overflow checks the order can decide whether another parameter of the same header is looked at before the panic of C03)."
  },
  {
   "property": "C36",
   "status": "proved",
   "theorems": [
    "C36_content_type_back",
    "C36_content_disposition_back",
    "C36_every_map_written",
    "C36_content_type_mail"
   ],
   "note": "Any splitting, any order of the segments; 255 segments in overflow-checked builds (C03), 256 otherwise. Each encoded segment is valid UTF-8 by itself, as the code decodes segment by segment."
  },
  {
   "property": "C37",
   "status": "proved",
   "theorems": [
    "C37_extended_parameter_refuted",
    "C37_extended_filename_refuted"
   ],
   "note": "The claim is false of the code: both theorems are refutations valid in every build (raw text returned; no file name set)."
  },
  {
   "property": "C38",
   "status": "proved",
   "theorems": [
    "C38_version_back",
    "C38_version_exact",
    "C38_larger_refused"
   ],
   "note": ""
  },
  {
   "property": "C39",
   "status": "proved",
   "theorems": [
    "C39_message_defaults",
    "C39_part_defaults"
   ],
   "note": "Messages and parts."
  },
  {
   "property": "C40",
   "status": "proved",
   "theorems": [
    "C40_fields",
    "C40_email"
   ],
   "note": "For the fields and for the whole Email; the only possible changes are a body refused by itself."
  },
  {
   "property": "C41",
   "status": "proved",
   "theorems": [
    "C41_regular_header",
    "C41_recognised_iff_tidy",
    "C41_regular_message",
    "C41_regular_block_text",
    "C41_mail_refuted",
    "C41_blank_at_end_refuted",
    "C41_empty_bcc_unrecognised",
    "C41_received_address_refuted",
    "C41_structured_exact",
    "C41_structured_plain",
    "C41_resent_exact",
    "C41_resent_plain"
   ],
   "note": "The literal claim is false (C41_*_refuted, C41_empty_bcc_unrecognised). Proved instead: exactly which texts are recognised as which structured header, in any build (C41_structured_exact with mime, where phrases with encoded words are read from left to right, C41_structured_plain without; C41_resent_*, C52_received for the headers of trace blocks; C53_field for the MIME headers). Of the headers of the RFC grammar without '=?', these are exactly those with no blank right before the line end except after a fold (C41_recognised_iff_tidy)."
  },
  {
   "property": "C42",
   "status": "proved",
   "theorems": [
    "C42_feature_off_refuted",
    "C42_feature_off_exact",
    "C42_feature_off_result",
    "C42_every_mail"
   ],
   "note": "C42_feature_off_exact: a mail accepted by a build is accepted by a build with fewer header features (mime and the other build switches equal) if and only if no header whose name the smaller build does not know has a whitespace-only line. C42_feature_off_result: what the smaller build then returns. C42_every_mail: every accepted mail has the form these theorems speak of. C42_feature_off_refuted: the claim without the condition is false."
  },
  {
   "property": "C43",
   "status": "proved",
   "theorems": [
    "C43_concatenation",
    "C43_concatenation_str",
    "C43_borrowed_is_adjacent",
    "C43_stays_inside",
    "C43_zero_copy",
    "C43_any_number",
    "C43_two_allocations_refuted"
   ],
   "note": "Also for any number of slices. C43_two_allocations_refuted: slices of two different allocations that happen to be adjacent are joined into a slice that lies in neither (Rust's provenance rules forbid it); the theorem on contents still holds."
  },
  {
   "property": "C44",
   "status": "proved",
   "theorems": [
    "C44_errors"
   ],
   "note": "The list is exhaustive; examples show every one of them occurs."
  },
  {
   "property": "C45",
   "status": "proved",
   "theorems": [
    "C45_entity_meaning",
    "C45_part_meaning"
   ],
   "note": "Soundness against declarative specifications of entities and parts."
  },
  {
   "property": "C46",
   "status": "proved",
   "theorems": [
    "C46_without_mime",
    "C46_addresses_and_names",
    "C46_with_mime_refuted"
   ],
   "note": "Two positive theorems; the remaining part of the claim (texts in builds with mime) is false of the code and refuted by a witness."
  },
  {
   "property": "C47",
   "status": "proved",
   "theorems": [
    "C47_returned_emails"
   ],
   "note": "Both directions: every returned email meets the conditions of MailSpec.v, and for every email that meets them a message is constructed that parses to it."
  },
  {
   "property": "C48",
   "status": "proved",
   "theorems": [
    "C48_part_read",
    "C48_tree_read",
    "C48_mail_read",
    "C48_one_tree",
    "C48_every_tree_mailed"
   ],
   "note": "C48_part_read: a part is read with all its headers and its decoded content. C48_tree_read, C48_mail_read: trees of any depth, standing alone or as the body of a message. C48_one_tree: uniqueness. C48_every_tree_mailed: existence for every tree with lower-case types."
  },
  {
   "property": "C49",
   "status": "proved",
   "theorems": [
    "C49_split",
    "C49_lines",
    "C49_order"
   ],
   "note": "C49_split: block and rest are read separately. C49_lines: line by line. C49_order: the email under a change of order. C49_trace_example: why trace headers are excluded."
  },
  {
   "property": "C50",
   "status": "proved",
   "theorems": [
    "C50_added",
    "C50_removed"
   ],
   "note": "C50_added: values without ambiguous encoded words (clear_text_value, only relevant with unrecognized-headers). C50_removed: any value."
  },
  {
   "property": "C51",
   "status": "proved",
   "theorems": [
    "C51_exact",
    "C51_outcome",
    "C51_one_cut",
    "C51_unclosed"
   ],
   "note": "CutSpec.v defines the cutting by first occurrences, independently of the parser. C51_exact and C51_outcome hold for every text; C51_one_cut: the cutting is unique; C51_unclosed: the two outcomes exclude each other."
  },
  {
   "property": "C52",
   "status": "proved",
   "theorems": [
    "C52_exact",
    "C52_rejected",
    "C52_message",
    "C52_once",
    "C52_field",
    "C52_received"
   ],
   "note": "Stated with the grammar of ExactSpec.v (clear_field of CompleteFields.v for structured headers, block starts, greedy trace blocks). Builds with mime are not covered by the equivalence (encoded words may start anywhere in a value); C52_received holds in every build."
  },
  {
   "property": "C53",
   "status": "proved",
   "theorems": [
    "C53_exact",
    "C53_rejected",
    "C53_email",
    "C53_same",
    "C53_message",
    "C53_message_read",
    "C53_field",
    "C53_cut"
   ],
   "note": "Exactness in both directions for release builds with mime, encoded words in phrases included. Debug builds are excluded: they crash on segment 255 (C03)."
  },
  {
   "property": "C54",
   "status": "proved",
   "theorems": [
    "C54_linear",
    "C54_counts"
   ],
   "note": "Proved for all builds without mime. The count is that of an instrumented copy of the parser (Timed.v) proved to return the same results; what is counted as one operation is stated at the top of that file. Builds with mime are not covered."
  },
  {
   "property": "C55",
   "status": "proved",
   "theorems": [
    "C55_parse",
    "C55_parse_message",
    "C55_raw_entity",
    "C55_entity",
    "C55_header",
    "C55_codecs",
    "C55_panic",
    "C55_raw_entity_panic",
    "C55_entity_panic",
    "C55_full_is_long",
    "C55_same",
    "C55_entity_same",
    "C55_without_mime",
    "C55_total",
    "C55_exact",
    "C55_order",
    "C55_order_refuted"
   ],
   "note": "PropDebug.v. The relation is an equality of outcomes with the model instantiated with debug := false (release E). C55_order_refuted is a witness with 257 parameters. The panic condition is necessary, not sufficient: C03_every_overlong_parameter gives a large class of texts that do panic; an erring other parameter can prevent it depending on hash order."
  },
  {
   "property": "C56",
   "status": "proved",
   "theorems": [
    "C56_exact",
    "C56_rejected",
    "C56_part",
    "C56_same",
    "C56_one",
    "C56_header",
    "C56_cut",
    "C56_multipart",
    "C56_tree",
    "C56_part_tree",
    "C56_mail_tree"
   ],
   "note": "Release builds; C55_same/C55_entity_same carry it over to checked builds for texts with fewer than 256 semicolons. Text parts without a known charset show no tree (C48's trees)."
  },
  {
   "property": "C57",
   "status": "proved",
   "theorems": [
    "C57_mail",
    "C57_one",
    "C57_checked",
    "C57_part",
    "C57_entity"
   ],
   "note": "The error texts are those of the code. Errors inside a header are never returned: a header that fails is read as an unknown one."
  },
  {
   "property": "C58",
   "status": "proved",
   "theorems": [
    "C58_shown",
    "C58_written",
    "C58_added",
    "C58_removed"
   ],
   "note": "C58_shown for all headers of the regular grammar, C58_written for the texts of the writers; C58_added and C58_removed change one optional header. C12_mail, C24_mail, C27_*_mail, C30_subject_mail, C31_*_mail, C36_content_type_mail state the earlier round trips for whole mails."
  },
  {
   "property": "C59",
   "status": "proved",
   "theorems": [
    "C59_base64",
    "C59_quoted_printable",
    "C59_decode_qp_linear_refuted",
    "C59_decode_header_qp_linear_refuted",
    "C59_encode_qp_linear_refuted",
    "C59_percent",
    "C59_percent_linear_refuted",
    "C59_value",
    "C59_parts_same",
    "C59_parts_linear",
    "C59_parts",
    "C59_parts_linear_refuted"
   ],
   "note": "Counting versions of the codecs (TimedCodec.v) with insert, remove and drain costing the bytes they move; same results as the model; upper bounds by invariants, lower bounds by families of inputs of every size. The five _linear_refuted theorems state that a linear bound is false of the code."
  },
  {
   "property": "C60",
   "status": "proved",
   "theorems": [
    "C60_cubic",
    "C60_quadratic_refuted",
    "C60_part",
    "C60_part_linear_refuted",
    "C60_entity",
    "C60_entity_linear_refuted"
   ],
   "note": "Proved on counting versions of all the parsers with mime (TimedMime.v), tied to the model by erasure theorems. The external charset decoder is assumed to return at most four bytes a byte. Texts on which a debug build panics (C03) are excepted."
  },
  {
   "property": "C61",
   "status": "proved",
   "theorems": [
    "C61_only",
    "C61_every",
    "C61_returned_emails"
   ],
   "note": "C61_only and C61_returned_emails cover every value; without the feature unrecognized-headers, C61_every leaves out the emails with an unknown header named MIME-Version, Content-Type, Content-Transfer-Encoding or Content-Disposition (their values are raw text there, and which of them are refused as MIME headers is not described by conditions on the value). Emails are equal up to the order of parameters, which the hash map does not fix."
  },
  {
   "property": "C62",
   "status": "proved",
   "theorems": [
    "C62_same",
    "C62_within",
    "C62_quiet",
    "C62_quiet_domain_refuted",
    "C62_value",
    "C62_lower",
    "C62_text",
    "C62_quoted"
   ],
   "note": "Refinement: the parsers with slices and the parsers with bytes go side by side. Domains in brackets with a blank inside are copied even without a fold: C62_quiet_domain_refuted. The parts of an entity are not covered."
  },
  {
   "property": "C63",
   "status": "proved",
   "theorems": [
    "C63_part_same",
    "C63_same",
    "C63_within",
    "C63_mail",
    "C63_owned",
    "C63_quiet",
    "C63_value",
    "C63_text"
   ],
   "note": "part_same and same: the Cow parsers of entities refine the byte parsers. within, mail, owned: where the slices lie. quiet, value, text: what is copied. Builds with mime only: the module does not exist in others."
  },
  {
   "property": "C64",
   "status": "proved",
   "theorems": [
    "C64_mail",
    "C64_twice",
    "C64_mime",
    "C64_part",
    "C64_thrice",
    "C64_parts",
    "C64_decoded"
   ],
   "note": "A measure of the values of fields, bounded by the text of each field along the grammars of C25-C31 and C36, summed over the fields; maps have one entry per name. C64_twice and C64_thrice show that the factors are needed."
  },
  {
   "property": "C65",
   "status": "proved",
   "theorems": [
    "C65_mail",
    "C65_bytes",
    "C65_count",
    "C65_depth",
    "C65_exponential"
   ],
   "note": "Upper bounds by induction on the depth, from the cuts of C51 and the decodings of C12; the lower bound by a family of nested multiparts with hidden hyphens, read back through C48."
  },
  {
   "property": "C66",
   "status": "proved",
   "theorems": [
    "C66_type_conforms",
    "C66_mechanism_conforms",
    "C66_version_conforms",
    "C66_disposition_conforms",
    "C66_dated_disposition_refuted",
    "C66_type_understood",
    "C66_compact_type",
    "C66_mechanism_understood",
    "C66_longer_type_refuted",
    "C66_slash_refuted",
    "C66_equals_refuted",
    "C66_comments_refuted",
    "C66_version_refuted"
   ],
   "note": "A token grammar of the RFCs, independent of the shape of the parsers; soundness from the sound_* lemmas of C41/C53, completeness from the forward lemmas, failure by witnesses. That a dated disposition is outside the grammar is shown with a scanner that accepts every lexical text."
  },
  {
   "property": "C67",
   "status": "proved",
   "theorems": [
    "C67_understood",
    "C67_padding",
    "C67_all_padded",
    "C67_end",
    "C67_nested_refuted"
   ],
   "note": "Proved for all bodies of the RFC grammar whose parts, preamble and epilogue contain no delimiter lines; the claim that all are read is refuted (C67_nested_refuted, C67_end, C67_all_padded)."
  },
  {
   "property": "C68",
   "status": "proved",
   "theorems": [
    "C68_mail",
    "C68_count",
    "C68_leaves",
    "C68_bytes",
    "C68_levels",
    "C68_identity"
   ],
   "note": "Proved for all entities; the quadratic bound for all parts is not shown to be tight."
  },
  {
   "property": "C69",
   "status": "proved",
   "theorems": [
    "C69_mail",
    "C69_part",
    "C69_entity",
    "C69_tells",
    "C69_entity_tells",
    "C69_composite",
    "C69_message_kept"
   ],
   "note": "Messages as Display writes them; the tables are spelled out in DisplaySpec.v."
  },
  {
   "property": "C70",
   "status": "proved",
   "theorems": [
    "C70_mail",
    "C70_tree",
    "C70_squares"
   ],
   "note": "The counted work is that of the instrumented model of C60. The bound is an upper bound; C60 has the quadratic lower bound for one mail, no cubic mail is exhibited."
  },
  {
   "property": "C71",
   "status": "proved",
   "theorems": [
    "C71_refused",
    "C71_forms",
    "C71_malformed",
    "C71_from"
   ],
   "note": "C71_refused is stated for texts without sign or without recent year, C71_forms shows that the obsolete forms are such texts (named zones with any folding; short and early years with one blank between the words). Comments inside dates (obsolete too) are not covered. Checked builds with mime: see C55."
  },
  {
   "property": "C72",
   "status": "proved",
   "theorems": [
    "C72_added",
    "C72_second_date",
    "C72_sender",
    "C72_sender_missing",
    "C72_lost",
    "C72_malformed_id",
    "C72_malformed_sender"
   ],
   "note": "malformed headers are inert apart from one more unknown header (trace headers excluded, folded values covered); the sender is assumed when its header cannot be read"
  },
  {
   "property": "C73",
   "status": "proved",
   "theorems": [
    "C73_inside",
    "C73_between",
    "C73_after",
    "C73_body",
    "C73_body_cr",
    "C73_multipart",
    "C73_multipart_cut_refuted",
    "C73_fold_kept_refuted"
   ],
   "note": "C73_fold_kept_refuted: after a cut at a fold the value of the folded header is shortened without notice; cuts in the body of mails with mime are treated in C40"
  },
  {
   "property": "C74",
   "status": "proved",
   "theorems": [
    "C74_lines",
    "C74_add",
    "C74_shown",
    "C74_mime",
    "C74_folded_refuted",
    "C74_mime_refuted",
    "C74_part",
    "C74_multipart"
   ],
   "note": "C74_lines: without mime accepted, a mandatory header missing, or a header repeated. C74_add: added lines with new names keep a mail accepted. C74_mime: with mime also an undecodable body, for headers not folded where the parser can stop. C74_shown: every line of an accepted mail is shown, in every configuration. C74_part, C74_multipart: a part in lines, and a multipart of such parts, is refused only for an undecodable content. C74_mime_refuted, C74_folded_refuted: why the mime case needs more."
  },
  {
   "property": "C75",
   "status": "proved",
   "theorems": [
    "C75_headers",
    "C75_mail",
    "C75_refused",
    "C75_unix",
    "C75_part",
    "C75_part_refused",
    "C75_mime_refuted"
   ],
   "note": "C75_headers, C75_mail, C75_part: what accepted mails and parts are made of. C75_refused, C75_unix, C75_part_refused: what is refused, with which error. C75_mime_refuted: bodies with mime are not checked."
  },
  {
   "property": "C76",
   "status": "proved",
   "theorems": [
    "C76_lines",
    "C76_unknown",
    "C76_late",
    "C76_same",
    "C76_mime",
    "C76_mime_back",
    "C76_part",
    "C76_part_back"
   ],
   "note": "C76_lines: without mime, accepted exactly if each line is a header on its own and the email is the one of these headers. C76_unknown: the unknown headers are the lines left over. C76_late: no trace is read from such a mail, its trace headers are all among the unknown ones. C76_same: lines that are the same header are interchangeable. C76_mime, C76_mime_back: the same with mime, in unchecked builds and for headers not folded where the parser can stop. C76_part, C76_part_back: the same for parts."
  }
 ]
}