{"claims": [
 {"property": "C01", "status": "proved", "theorems": ["C01_sorted_map"], "note": ""},
 {"property": "C02", "status": "proved", "theorems": ["C02_read_your_write"], "note": ""},
 {"property": "C03", "status": "proved", "theorems": ["C03_delete"], "note": ""},
 {"property": "C04", "status": "proved", "theorems": ["C04_put_reports"], "note": ""},
 {"property": "C05", "status": "proved", "theorems": ["C05_put_cas"], "note": ""},
 {"property": "C06", "status": "proved", "theorems": ["C06_del_cas"], "note": ""},
 {"property": "C07", "status": "proved", "theorems": ["C07_C08_appended"], "note": ""},
 {"property": "C08", "status": "proved", "theorems": ["C07_C08_appended", "C08_append_only"], "note": ""},
 {"property": "C09", "status": "proved", "theorems": ["C09_C10_btree", "C09_current_tree"], "note": ""},
 {"property": "C10", "status": "proved", "theorems": ["C09_C10_btree"], "note": ""},
 {"property": "C11", "status": "proved", "theorems": ["C11_no_panic", "C01_sorted_map"], "note": ""},
 {"property": "C12", "status": "proved", "theorems": ["C12_forward", "C12_builder"], "note": "For every configuration the builder accepts (C12_builder) and more: all with bounds_ok."},
 {"property": "C13", "status": "proved", "theorems": ["C13_reverse"], "note": ""},
 {"property": "C14", "status": "partial", "theorems": ["C14_refuted", "C14_reverse_partial", "C14_forward_partial", "C12_forward"], "note": "False of the code (C14_refuted: equal bounds, lower included, upper excluded, forward: the key is yielded). Proved instead: every reverse traversal is right; every forward one for which the builder condition holds (C12_forward); for all others the exact wrong result."},
 {"property": "C15", "status": "partial", "theorems": ["C15_refuted", "C15_accepts_refuted", "C15_finite_partial", "C15_single_partial", "C15_exact_partial", "C15_refused_partial"], "note": "False of the code (explicit infinite bounds are rejected; a lone contradictory infinite bound is accepted). Proved instead: exactly what is accepted (C15_exact_partial); of the bounds that some key keeps, those refused are exactly the pairs with an infinite bound given explicitly (C15_refused_partial)."},
 {"property": "C16", "status": "proved", "theorems": ["C16_same_as_parent", "C16_default_separator", "C16_others_unchanged"], "note": ""},
 {"property": "C17", "status": "proved", "theorems": ["C17_apart", "C17_independent", "C17_can_meet"], "note": ""},
 {"property": "C18", "status": "partial", "theorems": ["C18_hidden_refuted", "C18_leak_refuted", "C18_panic_refuted", "C18_partial"], "note": "False of the code (C18_*_refuted: prefix ending in 0xff or empty hides the entries, foreign keys leak, short foreign keys panic). Proved instead: right for every configuration, prefix and store outside these cases (sub_bounds_ok)."},
 {"property": "C19", "status": "proved", "theorems": ["C19_block_round_trip", "C19_header_round_trip"], "note": ""},
 {"property": "C20", "status": "proved", "theorems": ["C20_reopened_handle", "C20_reopened_core"], "note": ""},
 {"property": "C21", "status": "proved", "theorems": ["C21_every_version"], "note": ""},
 {"property": "C22", "status": "proved", "theorems": ["C22_crash", "C22_failures"], "note": "C22_crash: process death after any atomic step; C22_failures: failing reads and appends, acknowledged or not."},
 {"property": "C23", "status": "partial", "theorems": ["C23_put_refuted", "C23_del_refuted", "C23_put_partial", "C23_idle_partial", "C22_failures"], "note": "False of the code (C23_*_refuted). It holds for a put when no append fails (C23_put_partial) and for a write that stores nothing (C23_idle_partial); otherwise C22: the core is intact and a reopened handle works."},
 {"property": "C24", "status": "proved", "theorems": ["C24_handles_agree", "C01_sorted_map"], "note": "C01_sorted_map covers any mix of handles and reopenings."},
 {"property": "C25", "status": "proved", "theorems": ["C25_concurrent_readers", "C25_C26_tasks_end"], "note": "Tasks are preempted between any two commands, finer than await points; locks only remove schedules (C61)."},
 {"property": "C26", "status": "proved", "theorems": ["C25_C26_tasks_end", "C26_snapshot"], "note": ""},
 {"property": "C27", "status": "partial", "theorems": ["C27_first_refuted", "C27_refuted"], "note": "False of the code (C27_refuted, C27_first_refuted): nothing excludes two writers on one handle."},
 {"property": "C28", "status": "partial", "theorems": ["C28_refuted", "C28_fails_refuted", "C28_other_key_refuted", "C26_snapshot", "C55_beside_a_write"], "note": "False of the code (C28_refuted, C28_fails_refuted, C28_other_key_refuted). Readers on their own handle are fine: C26_snapshot. What a get answers is at least the content of a block: C54_concurrent. Beside one writer it is moreover a current entry or the one being put: C55_beside_a_write."},
 {"property": "C29", "status": "partial", "theorems": ["C29_loses_refuted", "C29_shows_refuted", "C29_panics_refuted", "C26_snapshot", "C55_beside_a_write"], "note": "False of the code on one handle (C29_*_refuted). With the write on another handle the stream is a snapshot: C26_snapshot. What a stream shows beside one writer is current or being put: C55_beside_a_write."},
 {"property": "C30", "status": "proved", "theorems": ["C30_read_failures", "C30_traversal"], "note": ""},
 {"property": "C31", "status": "proved", "theorems": ["C31_deterministic"], "note": ""},
 {"property": "C32", "status": "proved", "theorems": ["C32_layout"], "note": ""},
 {"property": "C33", "status": "proved", "theorems": ["C33_seq_locates"], "note": ""},
 {"property": "C34", "status": "proved", "theorems": ["C34_header_first", "C34_header_decodes", "C34_header_once", "C34_first_put", "C34_rootless"], "note": ""},
 {"property": "C35", "status": "partial", "theorems": ["C35_panic_refuted", "C35_hang_refuted", "C35_stream_refuted", "C35_sane_cores_partial", "C35_own_cores"], "note": "False of the code (C35_panic_refuted, C35_hang_refuted, C35_stream_refuted: bad blocks panic get, loop it for ever, or make the stream panic after an error). Proved instead: on every sane core (see Spec.sane: children are earlier or later in the same block and exist, internal nodes have more children than keys; keys arbitrary, blocks may be undecodable), reads answer."},
 {"property": "C36", "status": "partial", "theorems": ["C36_absent_refuted", "C36_no_value_refuted", "C36_error_refuted", "C36_found_partial"], "note": "False of the code (C36_*_refuted: todo!() panics the task for an absent key, a key without value, or an error, so the callback is never called). Proved instead: a key stored with a value gets exactly one callback with its seq and value."},
 {"property": "C37", "status": "proved", "theorems": ["C37_calls", "C37_subs", "C37_nothing_lost", "C37_messages"], "note": "Errors cross as variant and Display text; equal texts mean equal errors (C37_nothing_lost). The code uniffi generates is not modelled."},
 {"property": "C38", "status": "proved", "theorems": ["C38_polling", "C38_wakes"], "note": "Inner futures are model programs run in any pieces; that a Pending future wakes the task itself is the contract of Future."},
 {"property": "C39", "status": "proved", "theorems": ["C39_emptied"], "note": ""},
 {"property": "C40", "status": "proved", "theorems": ["C40_key_order"], "note": ""},
 {"property": "C41", "status": "proved", "theorems": ["C41_height", "C41_print", "C41_logarithmic", "C41_faults", "C41_consumer"], "note": ""},
 {"property": "C42", "status": "proved", "theorems": ["C42_few_reads"], "note": "call_reads counts CoreGet commands of the run; streams are bounded by C56."},
 {"property": "C43", "status": "proved", "theorems": ["C43_fetched_once"], "note": "For calls that answer (C11: all do on cores the library wrote). The calls through the handle come one after the other, each finished or given up; two that overlap may both fetch a block. Through other handles anything may happen."},
 {"property": "C44", "status": "proved", "theorems": ["C44_given_up", "C44_reads"], "note": "A call is a program of atomic commands; it is given up between any two, finer than await points."},
 {"property": "C45", "status": "partial", "theorems": ["C45_put_refuted", "C45_del_refuted", "C44_given_up", "C55_given_up"], "note": "False of the code (C45_put_refuted, C45_del_refuted: the del given up even takes effect later, with the next put through that handle). Proved instead: C44_given_up, the handle works again once it is opened again. What the handle shows afterwards is current or was being put: C55_given_up."},
 {"property": "C46", "status": "partial", "theorems": ["C46_undone_refuted", "C46_doubled_refuted", "C46_put_partial", "C46_cached_partial"], "note": "False of the code for del (C46_undone_refuted, C46_doubled_refuted): a get that fetches the same block replaces the cached copy, and repair then works on the wrong copy. True for put and put_compare_and_swap, next to any number of reads under any schedule (C46_put_partial; with failures of the storage through the events EvBusy of all histories), and for every call that by itself would read no block (C46_cached_partial)."},
 {"property": "C47", "status": "proved", "theorems": ["C47_reads", "C47_blocks", "C47_header", "C47_header_metadata"], "note": "Decoding is characterised completely (C47_reads is an equivalence); the description of the wire format in Wire.v does not use the codec of the model."},
 {"property": "C48", "status": "partial", "theorems": ["C48_lost_refuted", "C48_old_lost_refuted", "C48_headers_refuted"], "note": "False of the code (C48_*_refuted): the sequence number and the root are read before the append and nothing excludes others in between, so an answered put, or an entry that was there before, is lost; two first puts can write two headers. Writes that come one after the other, through any handles and beside any reads, are fine: C24_handles_agree, C26_snapshot."},
 {"property": "C49", "status": "proved", "theorems": ["C49_small_blocks"], "note": "The constants are those of ten-byte numbers; 2h+3 nodes is the bound of C32."},
 {"property": "C50", "status": "proved", "theorems": ["C50_same_messages"], "note": "For the programs of all methods on handles; the methods of the C interface are covered as far as Ffi.v maps them to these."},
 {"property": "C51", "status": "proved", "theorems": ["C51_safe", "C51_no_leak", "C51_answers", "C51_once"], "note": "C51_answers and C51_once need no rules. The rules can be kept: C51_safe_case and C51_no_leak_case run two gets at once and give everything back."},
 {"property": "C52", "status": "partial", "theorems": ["C52_close_refuted", "C51_safe"], "note": "False of the code (C52_close_refuted: the task uses freed memory). Proved instead: closing is safe when no get on the Hyperbee is under way, or the runtime has been closed first (C51_safe)."},
 {"property": "C53", "status": "partial", "theorems": ["C53_refuted", "C54_concurrent"], "note": "False of the code (C53_refuted: another key is removed for good). The answer is at least a sequence number of the right key: C54_concurrent."},
 {"property": "C54", "status": "proved", "theorems": ["C54_concurrent", "C54_alone", "C54_nothing_invented"], "note": "borne_out (Spec.v) says what each kind of answer claims. In C54_concurrent the key of a get is its own only if all calls on its handle are reads (quiet); that this cannot be dropped is C28_other_key_refuted. C54_nothing_invented is for blocks shorter than 2^64 bytes."},
 {"property": "C55", "status": "proved", "theorems": ["C55_beside_a_write", "C55_given_up"], "note": "For cores that have their header (at least one block), fuel below 2^50 and blocks shorter than 2^64 bytes. in_store says what a get would have answered before the write, put_by what the write puts. A write that fails, or stops at any command, is a schedule that does not run it further."},
 {"property": "C56", "status": "proved", "theorems": ["C56_scan_reads"], "note": "Without storage faults. call_reads counts CoreGet commands of the run."},
 {"property": "C57", "status": "proved", "theorems": ["C57_rules_needed", "C57_close_needed"], "note": "A get whose callback is all that is left to call (finished reading, or panicked) may have its Hyperbee closed; C57_close_needed says so by its hypothesis."},
 {"property": "C58", "status": "proved", "theorems": ["C58_any_core", "C58_behaves"], "note": "Generalises C01 and C22 from cores written by the library to any core that holds a B-tree."},
 {"property": "C59", "status": "proved", "theorems": ["C59_bound", "C59_sub_bound", "C59_print_bound", "C59_search_ends"], "note": "The internal bound of reorder_nodes is not varied (DESIGN section 2)."},
 {"property": "C60", "status": "partial", "theorems": ["C60_stream_put_refuted", "C60_paused_stream_refuted", "C60_del_refuted", "C60_causes_partial", "C60_ends_partial"], "note": "False of the code: a stream and a put on one handle wait for each other (C60_stream_put_refuted); a stream that is not polled holds up a put (C60_paused_stream_refuted); on a core with one node as two children a del waits for itself (C60_del_refuted). Proved instead: with at most one del at a time per handle there is no other cause (C60_causes_partial); gets and puts, and reads of any kind, always come to an end (C60_ends_partial)."},
 {"property": "C61", "status": "proved", "theorems": ["C61_locks_restrict"], "note": "Locks that are only taken for reading are left out of both models; height and print are not among the calls."},
 {"property": "C62", "status": "proved", "theorems": ["C62_alone", "C62_any_core", "C62_apart", "C62_apart_any"], "note": "The call starts with no lock taken: guards are dropped with their futures. On a core that holds no B-tree a del may wait for itself (C60_del_refuted)."},
 {"property": "C63", "status": "proved", "theorems": ["C63_answers", "C63_caught_up", "C63_complete", "C63_ends"], "note": ""}
]}
