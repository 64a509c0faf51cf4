{
 "claims": [
  {
   "property": "C01",
   "status": "proved",
   "theorems": [
    "claims_exclusive",
    "claim_raises_exactly",
    "has_claim_exact"
   ],
   "note": "All histories of claims on one context; paths have non-empty components, as the loader produces."
  },
  {
   "property": "C02",
   "status": "proved",
   "theorems": [
    "claim_attempt_exact_effect"
   ],
   "note": "Exact outcome and frame of one attempt on any table built by claims."
  },
  {
   "property": "C03",
   "status": "proved",
   "theorems": [
    "extra_claims_only_at_listed_paths"
   ],
   "note": ""
  },
  {
   "property": "C04",
   "status": "partial",
   "theorems": [
    "listed_path_claims_once_refuted",
    "listed_path_claims_once_partial"
   ],
   "note": "False of the code: the availability filter compares strings with tuples, so a listed path can claim a course repeatedly. Refuted with a witness. Proved instead: only at listed paths can two claims of a class come from one requirement path."
  },
  {
   "property": "C05",
   "status": "proved",
   "theorems": [
    "claim_history_only_grows",
    "audit_keeps_claims"
   ],
   "note": "for single claim histories and for audits of whole solution trees, any starting table"
  },
  {
   "property": "C06",
   "status": "proved",
   "theorems": [
    "find_best_exact",
    "find_best_raises",
    "selection_is_unique",
    "find_best_claims"
   ],
   "note": "None is only returned without merge_claims: with it and no candidate, UnboundLocalError is raised."
  },
  {
   "property": "C07",
   "status": "partial",
   "theorems": [
    "merged_claims_are_those_of_best_refuted",
    "merged_claims_are_those_of_best_partial"
   ],
   "note": "Refuted: the claims of the candidate looked at last are merged. Proved for complete results and single candidates."
  },
  {
   "property": "C08",
   "status": "proved",
   "theorems": [
    "driver_reports_best",
    "driver_trace_exact",
    "estimate_only_audits_nothing"
   ],
   "note": "Streams without exceptions for the message shape; driver_trace_exact covers exceptions too."
  },
  {
   "property": "C09",
   "status": "proved",
   "theorems": [
    "driver_work_is_bounded",
    "driver_trace_exact",
    "zero_options_raise"
   ],
   "note": "Nonzero audit_each and progress_every; zero raises."
  },
  {
   "property": "C10",
   "status": "proved",
   "theorems": [
    "lazy_product_is_product",
    "lazy_product_with_exceptions",
    "product_tuples"
   ],
   "note": "All finite factories, including ones that raise part way; the loop is the odometer of the code."
  },
  {
   "property": "C100",
   "status": "proved",
   "theorems": [
    "loaded_area_is_unaudited",
    "loaded_area_places_differ",
    "loaded_area_is_tidy",
    "all_places_differ_refuted"
   ],
   "note": "Refuted without the condition on the names of emphases."
  },
  {
   "property": "C101",
   "status": "proved",
   "theorems": [
    "loaded_areas_use_classes_once"
   ],
   "note": "Hypotheses about specification, student and exceptions only; see C90 for what fails with declared disjoint children."
  },
  {
   "property": "C102",
   "status": "proved",
   "theorems": [
    "blocked_classes_are_not_claimed",
    "required_classes_are_kept"
   ],
   "note": "The course of a proficiency ignores blocks (claims_example)."
  },
  {
   "property": "C103",
   "status": "proved",
   "theorems": [
    "insertions_are_children_of_areas"
   ],
   "note": ""
  },
  {
   "property": "C104",
   "status": "proved",
   "theorems": [
    "declared_emphases_are_asked_for",
    "passing_areas_pass_in_all_parts",
    "declared_emphases_are_needed_refuted"
   ],
   "note": "Without 'all' at the top a declared emphasis can be left out (refuted)."
  },
  {
   "property": "C105",
   "status": "proved",
   "theorems": [
    "passing_majors_meet_the_common_demands"
   ],
   "note": ""
  },
  {
   "property": "C106",
   "status": "partial",
   "theorems": [
    "undeclared_emphases_change_nothing",
    "emphases_are_checked",
    "valid_emphases_can_be_declared_refuted"
   ],
   "note": "The last sentence is false: a valid emphasis without 'all' and 'requirements' raises KeyError when declared, and any emphasis breaks a 'both' or 'either' at the top."
  },
  {
   "property": "C107",
   "status": "proved",
   "theorems": [
    "grades_are_read_by_their_codes",
    "grade_names_are_as_written",
    "registrar_codes_are_read_exactly",
    "types_are_named_and_ordered",
    "integrated_courses_are_recognised",
    "sub_types_are_listed_by_their_codes"
   ],
   "note": "Each table of codes against a relation written separately, with the error for everything else."
  },
  {
   "property": "C108",
   "status": "proved",
   "theorems": [
    "accepted_keys_name_fields",
    "clause_refused_for_its_shape",
    "unknown_fields_raise",
    "assertions_name_their_quantity",
    "quantities_are_told_apart",
    "unknown_quantities_are_refused"
   ],
   "note": "The keys of a performance slip that are not accepted (year, term) are named."
  },
  {
   "property": "C109",
   "status": "proved",
   "theorems": [
    "quotients_are_rounded_to_28_digits",
    "small_quotients_keep_their_hundredths",
    "rounding_does_not_change_averages",
    "rounding_can_change_hundredths_refuted"
   ],
   "note": "The bound on the reduced numerator is stated in the theorem; without it the claim is false (witness)."
  },
  {
   "property": "C11",
   "status": "proved",
   "theorems": [
    "ncr_counts_combinations",
    "combinations_are_subselections",
    "ncr_out_of_range_is_one"
   ],
   "note": ""
  },
  {
   "property": "C110",
   "status": "partial",
   "theorems": [
    "durations_in_words",
    "zero_duration_has_a_number_refuted",
    "seconds_stay_below_sixty_refuted",
    "durations_in_words_of_any_style"
   ],
   "note": "How every style reads is proved; that zero is given a number and that seconds stay below sixty is refuted for the default style."
  },
  {
   "property": "C111",
   "status": "proved",
   "theorems": [
    "announced_number_bounds_solutions",
    "announced_number_is_exact",
    "loaded_areas_are_orderly",
    "announced_number_bounds_all_solutions_refuted",
    "missing_branches_announce_none"
   ],
   "note": "Proved with the proviso of the statement; refuted without it (a class taken twice)."
  },
  {
   "property": "C112",
   "status": "partial",
   "theorems": [
    "labels_are_read_exactly",
    "reading_a_label_never_fails",
    "labels_have_one_reading",
    "written_labels_are_read_back",
    "labels_are_wholly_read_refuted"
   ],
   "note": "The reading is exact; that the whole label is read is refuted (\"CSCI 121 Lab\" is read as kind L, the rest is dropped)."
  },
  {
   "property": "C113",
   "status": "partial",
   "theorems": [
    "labels_are_read_exactly",
    "lab_labels_fit_no_class",
    "lab_labels_refer_to_no_class",
    "lab_rules_find_no_class",
    "lab_labels_find_their_class_refuted"
   ],
   "note": "The first fitting class is found for labels without the letters L, F and D; for those it is proved that no class of any transcript is ever found."
  },
  {
   "property": "C114",
   "status": "proved",
   "theorems": [
    "templates_are_what_the_labels_mean",
    "templates_do_not_depend_on_order",
    "templates_are_grouped_by_key"
   ],
   "note": "The order of the set is any permutation."
  },
  {
   "property": "C115",
   "status": "proved",
   "theorems": [
    "students_are_loaded_exactly",
    "students_load_iff_readable",
    "student_does_not_depend_on_order",
    "constants_are_exact",
    "constants_come_from_the_data"
   ],
   "note": "Iff between load_student and a record of relations written apart from it; every field determined. Floats in the data and non-ASCII blanks are not modelled."
  },
  {
   "property": "C116",
   "status": "partial",
   "theorems": [
    "mediums_are_read_exactly",
    "listed_mediums_are_read_back",
    "listed_mediums_are_read_apart_refuted"
   ],
   "note": "The reading is exact for every text and lists written with comma and space are read back; refuted for a comma without a space, which gives a one-element list."
  },
  {
   "property": "C117",
   "status": "partial",
   "theorems": [
    "numbers_are_read_exactly",
    "catalogs_in_text_are_always_read",
    "catalogs_are_always_read_refuted"
   ],
   "note": "Exact for all values; refuted for a catalog that is null, which raises TypeError."
  },
  {
   "property": "C118",
   "status": "proved",
   "theorems": [
    "gpa_report_exact",
    "last_cumulative_average_is_overall",
    "counted_courses_are_listed_once"
   ],
   "note": "Rows are values, not csv text; sets of courses are lists without repetition."
  },
  {
   "property": "C119",
   "status": "proved",
   "theorems": [
    "runs_start_exactly",
    "runs_are_exact"
   ],
   "note": "An equivalence: a run gives this output exactly if the data, the exceptions and the specification are as stated."
  },
  {
   "property": "C12",
   "status": "proved",
   "theorems": [
    "course_limits_hold",
    "at_most_k_courses"
   ],
   "note": "Any limits, overlapping or repeated, any set order."
  },
  {
   "property": "C120",
   "status": "proved",
   "theorems": [
    "exceptions_of_other_areas_do_not_matter",
    "runs_do_not_depend_on_order"
   ],
   "note": "Order of the data as in C115 (ids of courses and performances tell them apart)."
  },
  {
   "property": "C121",
   "status": "proved",
   "theorems": [
    "reported_results_are_audits",
    "the_last_result_is_the_best",
    "audits_are_announced"
   ],
   "note": "The bound on the number of audits needs that no course rule has several candidates; C111 refutes it in general."
  },
  {
   "property": "C122",
   "status": "proved",
   "theorems": [
    "decimals_are_read_exactly",
    "limits_are_loaded_exactly",
    "limits_share_a_count_iff_same",
    "different_limits_are_distinct",
    "stated_course_limits_hold",
    "limits_are_refused_exactly"
   ],
   "note": "Exact both ways; which limits count together is stated by an independent equality. stated_course_limits_hold assumes no two limits are the same (see C124 for what happens otherwise). Refusals are exact too, with the exception raised."
  },
  {
   "property": "C123",
   "status": "partial",
   "theorems": [
    "conditional_limits_are_refused_refuted",
    "conditional_limits_choose_once_partial"
   ],
   "note": "Refuted: the assertion 'limits are not allowed to have conditional clauses' tests the truth of the clause object, which always holds. Proved instead: the branch is chosen once, when the limit is read, and the limit restricts exactly the courses of that branch."
  },
  {
   "property": "C124",
   "status": "partial",
   "theorems": [
    "course_limited_selections_exact",
    "limits_stated_again_change_nothing_partial",
    "limits_stated_again_change_nothing_refuted"
   ],
   "note": "Refuted for a limit stated twice in exactly the same way: both share one counter, so each course counts twice and a limit of one allows none. Proved for limits that differ in some way (for example in the message): exact characterisation of the selections tried, for whole numbers of courses and clauses that raise nothing."
  },
  {
   "property": "C125",
   "status": "partial",
   "theorems": [
    "amounts_are_kept_refuted",
    "amounts_are_kept_partial"
   ],
   "note": "Refuted for a fraction without a unit: 1.5 becomes 1. Proved for all other amounts."
  },
  {
   "property": "C126",
   "status": "proved",
   "theorems": [
    "stored_result_tells_every_part",
    "stored_area_tells",
    "written_exactly_when",
    "audited_assertions_count_texts"
   ],
   "note": "places are reached by the same steps in the result and in the dictionary"
  },
  {
   "property": "C127",
   "status": "proved",
   "theorems": [
    "stored_claims_are_the_claims"
   ],
   "note": ""
  },
  {
   "property": "C128",
   "status": "partial",
   "theorems": [
    "section_is_never_told",
    "section_is_told_refuted"
   ],
   "note": "false: the result drops the course that matched, so the key is always null; also the marks of the search"
  },
  {
   "property": "C129",
   "status": "proved",
   "theorems": [
    "printed_report_exact"
   ],
   "note": "the first line (numbers of audits, times) is not modelled; the report is described from the result, not from its dictionary"
  },
  {
   "property": "C13",
   "status": "proved",
   "theorems": [
    "limits_only_remove_limited_courses",
    "no_limits_no_change",
    "variants_are_distinct_sets"
   ],
   "note": ""
  },
  {
   "property": "C130",
   "status": "proved",
   "theorems": [
    "parts_are_printed",
    "every_requirement_is_printed"
   ],
   "note": ""
  },
  {
   "property": "C131",
   "status": "partial",
   "theorems": [
    "printable_exactly_when_its_parts_are",
    "claims_are_printed_exactly_when",
    "every_stored_result_is_printed_refuted"
   ],
   "note": "false: a query with a negated condition cannot be printed; proved instead exactly when printing succeeds"
  },
  {
   "property": "C132",
   "status": "partial",
   "theorems": [
    "outer_requirement_at_the_path_is_printed",
    "requirement_elsewhere_is_left_out",
    "asked_requirement_is_printed_refuted"
   ],
   "note": "false for a requirement within another one, which is cut off above it; proved for outer requirements"
  },
  {
   "property": "C133",
   "status": "proved",
   "theorems": [
    "claimed_courses_are_listed"
   ],
   "note": ""
  },
  {
   "property": "C134",
   "status": "partial",
   "theorems": [
    "finished_mark_means_done",
    "done_is_marked_finished_when_complete",
    "done_is_marked_finished_refuted"
   ],
   "note": "the converse is false of incomplete courses that are not flagged as in progress"
  },
  {
   "property": "C135",
   "status": "partial",
   "theorems": [
    "claimed_list_exact",
    "claimed_list_fails_exactly_when",
    "claims_are_always_listed_refuted"
   ],
   "note": "The list is a sorted stable rearrangement of the claims' courses; it fails with TypeError exactly when two claimed rows of one offering differ in having a section, which happens."
  },
  {
   "property": "C136",
   "status": "partial",
   "theorems": [
    "discovered_attributes_exact",
    "discovered_attributes_are_mentioned",
    "mentioned_attributes_are_discovered_when_plain",
    "every_attribute_is_discovered_refuted",
    "attributes_below_conditionals_are_missed",
    "attributes_of_counts_are_missed",
    "attributes_by_the_other_key_are_missed",
    "every_file_is_looked_at"
   ],
   "note": "Exact for what is reached without conditionals, in queries and limits, under the key 'attributes'; attributes below conditionals, in assertions of counts and under the key 'attribute' are missed."
  },
  {
   "property": "C137",
   "status": "partial",
   "theorems": [
    "discovered_courses_exact",
    "referred_courses_are_discovered_when_plain",
    "every_course_is_discovered_refuted",
    "every_file_is_looked_at_for_courses"
   ],
   "note": "Exact for rules not below a conditional; those below one are missed."
  },
  {
   "property": "C138",
   "status": "partial",
   "theorems": [
    "attribute_table_exact",
    "course_table_exact",
    "course_table_is_right_when_nothing_shares_a_course",
    "second_run_repairs_the_table",
    "found_courses_are_stored_refuted"
   ],
   "note": "Exact for attributes. For courses, deleting one stale reference by number deletes all references by number of its area; the next run puts them back."
  },
  {
   "property": "C139",
   "status": "partial",
   "theorems": [
    "exported_row_exact",
    "exportable_exactly_when",
    "every_stored_result_is_exported_refuted"
   ],
   "note": "Exact row and exact condition; that every result can be exported is refuted by a query with an assertion."
  },
  {
   "property": "C14",
   "status": "proved",
   "theorems": [
    "limits_lose_no_admissible_selection"
   ],
   "note": "Course-count limits with non-negative maxima, distinct limits, where clauses that raise nothing; overlap allowed."
  },
  {
   "property": "C140",
   "status": "partial",
   "theorems": [
    "exported_course_was_passed_when",
    "exported_course_was_passed_refuted",
    "plain_text_is_coloured_done",
    "text_is_coloured_by_its_status"
   ],
   "note": "True when courses stand alone; refuted for a requirement directly over a course."
  },
  {
   "property": "C141",
   "status": "partial",
   "theorems": [
    "csv_table_exact",
    "row_has_the_last_value",
    "excel_table_exact",
    "excel_values_stand_below_their_headings_when",
    "excel_values_stand_below_their_headings_refuted",
    "csv_tables_are_refused"
   ],
   "note": "Spreadsheet headings refuted with two students of one area."
  },
  {
   "property": "C142",
   "status": "proved",
   "theorems": [
    "comparison_exact",
    "averages_are_those_of_the_rows_refuted",
    "totals_and_averages"
   ],
   "note": "Also the average line is refuted (averages_are_those_of_the_rows_refuted)."
  },
  {
   "property": "C143",
   "status": "partial",
   "theorems": [
    "changed_results_are_listed_partial",
    "listed_results_have_changed",
    "every_change_is_listed_refuted",
    "slow_results_are_not_compared"
   ],
   "note": "Exact for audits that both versions finish quickly; refuted for audits that raise with the new version."
  },
  {
   "property": "C144",
   "status": "partial",
   "theorems": [
    "baseline_batch_exact",
    "branch_batch_exact",
    "copying_fills_the_baseline_refuted",
    "copying_only_deletes",
    "failed_batches_change_nothing_refuted"
   ],
   "note": "Exact tables after batches; copying and failing batches refuted."
  },
  {
   "property": "C145",
   "status": "partial",
   "theorems": [
    "decimals_are_read_back",
    "stored_course_is_read_back",
    "stored_transcript_is_read_back",
    "stored_courses_are_kept_refuted"
   ],
   "note": "Exact up to four fields; that nothing is lost is refuted."
  },
  {
   "property": "C146",
   "status": "partial",
   "theorems": [
    "clauses_judge_stored_courses_alike",
    "clauses_judge_all_stored_courses_alike_refuted"
   ],
   "note": "Refuted for hidden grades."
  },
  {
   "property": "C147",
   "status": "proved",
   "theorems": [
    "durations_are_read_exactly",
    "durations_of_texts",
    "min_option_chooses"
   ],
   "note": "text is ascii; the duration is the sum for less than 2*10^27 milliseconds"
  },
  {
   "property": "C148",
   "status": "proved",
   "theorems": [
    "written_durations_are_read_back",
    "written_counts_add_up",
    "all_written_durations_are_read_back_refuted"
   ],
   "note": "sub-millisecond style in short words; refuted for the default style and for long words"
  },
  {
   "property": "C149",
   "status": "proved",
   "theorems": [
    "indexing_is_exact",
    "indexing_fails_as_a_whole",
    "listed_folders"
   ],
   "note": "values of files are texts; folders for years 1000 to 9998"
  },
  {
   "property": "C15",
   "status": "partial",
   "theorems": [
    "credit_limits_hold_refuted",
    "credit_limits_hold_partial",
    "credit_limits_exceeded_by_one_course"
   ],
   "note": "False for overlapping credit limits; proved for a credit limit sharing no course with another limit, and in general the overshoot is less than one course."
  },
  {
   "property": "C150",
   "status": "proved",
   "theorems": [
    "known_students_are_not_read_again",
    "indexing_again_adds_nothing",
    "the_index_is_up_to_date_refuted"
   ],
   "note": "that the index is up to date is refuted: changed files are not read again, files named otherwise are read each time"
  },
  {
   "property": "C151",
   "status": "proved",
   "theorems": [
    "areas_are_loaded_as_they_are",
    "areas_are_loaded_as_parsed",
    "failed_loading_keeps_the_table",
    "loading_twice_is_the_same_refuted"
   ],
   "note": "the specification is the parsed one or its json read back; these differ for keys that are not text (refuted)"
  },
  {
   "property": "C152",
   "status": "partial",
   "theorems": [
    "what_can_be_met_is_found",
    "a_plan_is_a_solution",
    "all_met_at_the_top",
    "an_area_that_can_be_passed_has_a_solution",
    "a_run_finds_what_can_be_passed",
    "found_at_the_top_refuted",
    "what_can_be_met_is_found_at_a_whole_top",
    "an_area_met_as_a_whole_has_a_solution",
    "a_run_reports_a_complete_solution",
    "a_run_finds_what_can_be_met_as_a_whole"
   ],
   "note": "Proved below the top and at the top when all children are asked for; refuted for 'some of' at the top. Majors are treated in C170. Also proved for tops of any kind, 'some of' included, no child of which is solved apart from the others (WholeProps)."
  },
  {
   "property": "C153",
   "status": "partial",
   "theorems": [
    "passing_candidates_are_preferred_refuted",
    "passing_candidates_are_preferred_partial"
   ],
   "note": "Refuted: the rank decides among incomplete candidates. Proved: a complete candidate always wins."
  },
  {
   "property": "C154",
   "status": "proved",
   "theorems": [
    "the_search_is_exact",
    "passed_if_it_can_be"
   ],
   "note": "Queries: over the transcript, without waivers, insertions or forced classes, with any limits whose clauses can be asked of any class and whose amounts are not negative, every assertion \"at least n\" of a quantity that more classes do not lower, no negative credits. Trees without proficiencies, count clauses and department-audited parts; no multicountable sets. Areas: not majors, all children asked for, declared-disjoint children are disjoint, one class per id. Examples search_example and mixed_example show the hypotheses and impossibilities derived from runs."
  },
  {
   "property": "C155",
   "status": "partial",
   "theorems": [
    "more_classes_do_not_hurt",
    "more_classes_do_not_hurt_an_area",
    "more_classes_never_hurt_refuted",
    "more_classes_do_not_hurt_under_limits",
    "more_classes_never_hurt_under_limits_refuted"
   ],
   "note": "Proved for trees of courses and simple queries (see C154) and for areas that are not majors, with no limits at the queries or the area or with limits such that no class under a credit limit is under another limit and each of them is worth credits (more_classes_do_not_hurt_under_limits); refuted for majors with a loaded area (more_classes_never_hurt_refuted): with one more class taken S/U the B.A. major ends FailedInvariant. Example mixed_example has a query. Refuted with a credit limit and a class worth no credits (more_classes_never_hurt_under_limits_refuted): no selection is left and the area has no result."
  },
  {
   "property": "C156",
   "status": "partial",
   "theorems": [
    "waived_parts_are_marked_partial",
    "department_requirements_pass_if_waived",
    "every_waived_part_is_marked_refuted"
   ],
   "note": "Exact for all parts but the two of the common block of a major, which are never marked (refuted for these)."
  },
  {
   "property": "C157",
   "status": "proved",
   "theorems": [
    "missing_areas_have_one_result",
    "missing_areas_pass_only_if_waived",
    "runs_without_specification"
   ],
   "note": "The statement about added classes is about areas whose solutions raise nothing. The message of the stand-in is only displayed and not modelled."
  },
  {
   "property": "C158",
   "status": "proved",
   "theorems": [
    "settings_are_loaded_exactly",
    "settings_with_equals_are_refused"
   ],
   "note": "A value with an equals sign in it makes the whole file refused; proved as settings_with_equals_are_refused."
  },
  {
   "property": "C159",
   "status": "partial",
   "theorems": [
    "messages_become_html",
    "messages_keep_their_text",
    "html_is_left_alone",
    "html_is_one_line",
    "indentation_does_not_matter",
    "no_empty_paragraphs_refuted"
   ],
   "note": "All proved; that no paragraph is empty is refuted: a gap of more than one empty line between two paragraphs gives an empty <p></p>."
  },
  {
   "property": "C16",
   "status": "partial",
   "theorems": [
    "limits_order_independent_refuted",
    "limits_order_independent_partial",
    "set_order_does_not_matter_apart"
   ],
   "note": "False for credit limits with zero-credit courses; proved for course limits. Credit limits as well, if no class under one is under another limit and each is worth credits (set_order_does_not_matter_apart)."
  },
  {
   "property": "C160",
   "status": "proved",
   "theorems": [
    "what_is_asked_for_is_found"
   ],
   "note": "Queries as in C154 without limits (with limits: C179). The classes are described on the transcript without the model's selections. Example asked_example: two classes with one in progress are not complete, with one more finished they are."
  },
  {
   "property": "C161",
   "status": "proved",
   "theorems": [
    "an_audit_is_told_alike",
    "server_and_testbed_store_the_same"
   ],
   "note": "Messages, durations and SQL as described in DESIGN.md (Client)."
  },
  {
   "property": "C162",
   "status": "partial",
   "theorems": [
    "timeout_exactly_when_a_look_is_late",
    "short_audits_are_never_cut_short",
    "the_limit_is_kept_refuted"
   ],
   "note": "The exact condition is proved; that the limit is kept is refuted."
  },
  {
   "property": "C163",
   "status": "partial",
   "theorems": [
    "exit_code_is_0_or_2",
    "exit_codes_tell_whether_anything_was_audited",
    "gpa_is_not_the_gpa_of_a_result",
    "a_good_exit_means_a_result_refuted"
   ],
   "note": "Proved as stated; that exit code 0 means that a result was printed is refuted."
  },
  {
   "property": "C164",
   "status": "partial",
   "theorems": [
    "testbed_prints_the_report",
    "testbed_shows_what_the_command_line_shows_refuted"
   ],
   "note": "The report is exact; agreement with the command line is refuted."
  },
  {
   "property": "C165",
   "status": "partial",
   "theorems": [
    "stored_by_hand_is_hidden",
    "stored_by_hand_is_shown_refuted"
   ],
   "note": "What is stored is proved; the meaning of --link-only is refuted."
  },
  {
   "property": "C166",
   "status": "partial",
   "theorems": [
    "valid_exactly",
    "complaints_exact",
    "silence_is_validity",
    "exit_code_is_zero",
    "exit_code_tells_refuted"
   ],
   "note": "The complaints are exact. Refuted: the exit code is 0 even if files are invalid, so scripts cannot rely on it."
  },
  {
   "property": "C167",
   "status": "partial",
   "theorems": [
    "valid_areas_load",
    "areas_that_load_are_valid",
    "all_or_none",
    "valid_means_it_loads_refuted",
    "loading_means_valid_refuted"
   ],
   "note": "Proved for steady specifications; refuted without the conditions, in both directions (witnesses: a requirement used in one branch of a conditional only, a hidden child of 'both', an emphasis without 'all', a course from a template)."
  },
  {
   "property": "C168",
   "status": "proved",
   "theorems": [
    "bulk_exact",
    "each_row_has_one_end"
   ],
   "note": "What becomes of a row is stated by row_ends, through comes_to (no messages)."
  },
  {
   "property": "C169",
   "status": "partial",
   "theorems": [
    "exit_zero_iff_all_went_through",
    "a_good_table_is_whole",
    "one_failure_leaves_the_others_refuted"
   ],
   "note": "Refuted: that a row that cannot be audited leaves the others alone."
  },
  {
   "property": "C17",
   "status": "proved",
   "theorems": [
    "list_comparison_is_membership",
    "list_list_in_is_intersection",
    "null_satisfies_nothing",
    "numbers_of_scalars"
   ],
   "note": "on non-null values; null_element_breaks_complement shows why"
  },
  {
   "property": "C170",
   "status": "partial",
   "theorems": [
    "own_requirements_of_a_major_are_found",
    "majors_that_can_be_passed_are_found_partial",
    "passable_majors_are_found_refuted"
   ],
   "note": "First half proved in general. Second half: proved when no child of the top rule is solved apart from the others; refuted otherwise: a child with no class in common with the others is solved on its own, its first complete choice is kept (a class taken S/U), and the common rules (at most one full class not graded) fail although another choice would have passed."
  },
  {
   "property": "C171",
   "status": "partial",
   "theorems": [
    "what_if_years_are_read_back",
    "what_ifs_come_first",
    "what_ifs_are_not_for_the_record_refuted",
    "the_worker_reads_the_year"
   ],
   "note": "Row, year and order proved. Refuted: unless the database's default for link_only says otherwise (the table is not in the repository), the result replaces the active one and is given run -1."
  },
  {
   "property": "C172",
   "status": "partial",
   "theorems": [
    "fetching_is_exact",
    "the_number_announced_is_fetched",
    "the_active_results_can_be_fetched",
    "fetching_again_fails",
    "any_run_can_be_fetched_refuted",
    "a_failed_fetch_changes_nothing_refuted",
    "latest_is_the_latest_run_refuted"
   ],
   "note": "Exactness proved, and that active results can be fetched after any history without two workers on one student and area. Refuted: a run that has two results of one student and area cannot be fetched; --clear loses the old rows even if fetching then fails; --latest is not the latest run but what is active."
  },
  {
   "property": "C173",
   "status": "partial",
   "theorems": [
    "queries_list_what_agrees",
    "single_runs_use_their_row",
    "extraction_ignores_the_catalog",
    "extraction_after_latest_is_exact",
    "extraction_is_exact_refuted",
    "invocations_name_the_file_of_the_server",
    "invocations_repeat_the_server_refuted"
   ],
   "note": "Queries and single runs proved. Extracting ignores the catalog: exact after fetching the active results, refuted in general. The command names the catalog's own file, which is the server's only if the catalog has it."
  },
  {
   "property": "C174",
   "status": "proved",
   "theorems": [
    "conditional_assertions_are_read_by_branch",
    "branches_have_their_own_exceptions"
   ],
   "note": ""
  },
  {
   "property": "C175",
   "status": "partial",
   "theorems": [
    "printed_again_as_at_first",
    "an_area_is_printed_again",
    "printed_again_alike_refuted"
   ],
   "note": "Refuted without the condition: classes under way, classes with a changed subject and two classes of one id are printed differently, since print.py knows neither term nor exceptions and does not renumber ids."
  },
  {
   "property": "C176",
   "status": "proved",
   "theorems": [
    "selections_under_limits_apart_exact",
    "some_selection_is_tried",
    "set_order_does_not_matter_apart",
    "some_selection_is_tried_refuted"
   ],
   "note": "The hypotheses are collected in limits_apart. Without them: some_selection_is_tried_refuted (a class worth no credits), credit_limits_hold_refuted and some_variant_is_emitted_refuted (overlapping limits)."
  },
  {
   "property": "C177",
   "status": "partial",
   "theorems": [
    "further_exceptions_do_not_hurt",
    "further_waivers_do_not_hurt_an_area",
    "further_waivers_never_hurt_refuted",
    "waivers_do_not_hurt_an_area"
   ],
   "note": "Proved for trees of courses, simple queries (which the exceptions do not touch), counts, requirements and conditionals, and for areas that are not majors, with any limits; the rules are the same with and without the exceptions. Refuted for majors."
  },
  {
   "property": "C178",
   "status": "proved",
   "theorems": [
    "waivers_leave_the_rules_alone",
    "every_waiver_leaves_the_rules_alone_refuted"
   ],
   "note": "The refuted statement is the one for all waivers: those of queries, assertions and conditionals are marked in the loaded rule."
  },
  {
   "property": "C179",
   "status": "proved",
   "theorems": [
    "what_is_asked_for_is_found_within_limits"
   ],
   "note": "Queries as in C154 with one assertion; no class under a credit limit is under another limit and each of them is worth credits, one class per id. The classes are described on the transcript without the model's selections. Example within_limits_example: of four classes three can count but not four, derived from runs of the search."
  },
  {
   "property": "C18",
   "status": "proved",
   "theorems": [
    "scalar_comparisons_coherent",
    "scalar_order_is_strict_total",
    "coerced_comparison_is_textual"
   ],
   "note": "the mixed-kind order is not transitive (mixed_comparison_not_transitive)"
  },
  {
   "property": "C180",
   "status": "partial",
   "theorems": [
    "inserted_classes_count_once",
    "further_insertions_do_not_hurt",
    "classes_never_count_twice_refuted"
   ],
   "note": "If and only if, for counts of classes, courses, subjects, terms and years; for credits if the query claims its classes for itself and no insertion is forced, or if no class is inserted that also matches, nor any twice. Refuted without that: the credits of a matching class that is forced in count twice."
  },
  {
   "property": "C181",
   "status": "partial",
   "theorems": [
    "assertions_count_each_class_once",
    "inserted_at_assertions_count_once_refuted",
    "blocked_at_assertions_do_not_count_refuted"
   ],
   "note": "Proved where the classes are told apart; refuted without: credits of a matching inserted class count twice, and a block removes only one of two occurrences."
  },
  {
   "property": "C182",
   "status": "proved",
   "theorems": [
    "exceptions_apart_change_nothing",
    "exceptions_at_no_part_change_nothing_refuted",
    "forced_insertions_apart_change_nothing_refuted",
    "loaded_areas_are_decided"
   ],
   "note": "Proved for exceptions that name no part, lie beneath no part that is asked about and are not forced insertions, for areas whose assertions have no undecided conditions (decided_area). Without the second condition refuted: a mistyped path beneath a query makes the query be audited, and a query asking for no class passes. Without the third refuted: a forced insertion at no part lifts the limits for its class.  Areas that have been loaded are decided (loaded_areas_are_decided)."
  },
  {
   "property": "C183",
   "status": "proved",
   "theorems": [
    "exceptions_for_gone_requirements_leave_the_rules_alone",
    "exceptions_for_gone_requirements_change_nothing"
   ],
   "note": "Whole specifications, from loading to the result. Beneath a part that the area has, and for forced insertions, it is false (C182)."
  },
  {
   "property": "C184",
   "status": "proved",
   "theorems": [
    "order_of_exceptions_leaves_the_rules_alone",
    "order_of_exceptions_changes_nothing",
    "order_of_exceptions_never_matters_refuted"
   ],
   "note": "Reorderings are generated by exchanging neighbours with different paths, not both for the common requirements: those are collected there in the order of first occurrence of their paths (get_insert_exceptions_beneath). The refuted statement allows every permutation."
  },
  {
   "property": "C185",
   "status": "proved",
   "theorems": [
    "idle_classes_change_nothing",
    "idle_classes_do_not_matter",
    "unused_classes_never_matter_refuted",
    "idle_classes_are_as_good_as_not_taken"
   ],
   "note": "The rules are those loaded for one of the two students. Without the condition on the common rule about credits outside of the department the statement is refuted for majors. In degrees the average is that of all classes. C186 gives when the rules loaded for the other student are the same."
  },
  {
   "property": "C186",
   "status": "proved",
   "theorems": [
    "idle_classes_leave_the_rules_alone",
    "idle_classes_are_as_good_as_not_taken",
    "idle_classes_never_choose_refuted"
   ],
   "note": "Without the condition on the questions of the area the statement is refuted: a condition on the class chooses another rule."
  },
  {
   "property": "C187",
   "status": "proved",
   "theorems": [
    "other_records_do_not_matter",
    "other_records_leave_the_rules_alone",
    "other_records_are_as_good_as_the_same",
    "other_records_never_choose_refuted",
    "other_records_never_matter_refuted"
   ],
   "note": "The audit for areas with decided conditions (every loaded area); loading for any specification; refuted without the condition on questions. ; and refuted for rules that look"
  },
  {
   "property": "C188",
   "status": "proved",
   "theorems": [
    "idle_classes_keep_the_estimate",
    "other_records_keep_the_estimate",
    "idle_classes_show_nothing",
    "other_records_show_nothing"
   ],
   "note": "For areas loaded from a specification; a class may count in a degree, so the first excludes degrees."
  },
  {
   "property": "C189",
   "status": "proved",
   "theorems": [
    "exceptions_apart_show_nothing",
    "exceptions_for_gone_requirements_show_nothing",
    "order_of_exceptions_shows_nothing"
   ],
   "note": "Not for exceptions that insert by force, which take a class out of the limits (refuted under C182)."
  },
  {
   "property": "C19",
   "status": "partial",
   "theorems": [
    "memo_transparent_refuted",
    "memo_transparent_partial",
    "memo_keeps_the_recent_answers"
   ],
   "note": "false in general: cache keys use python equality while the comparison may look at str(); proved for histories without coercion to text"
  },
  {
   "property": "C190",
   "status": "proved",
   "theorems": [
    "stale_entries_do_not_matter",
    "entries_may_be_swapped",
    "stale_overrides_do_not_matter_refuted"
   ],
   "note": "Overrides of a course count wherever their path leads, which the refuted statement shows."
  },
  {
   "property": "C191",
   "status": "proved",
   "theorems": [
    "unusable_classes_show_nothing",
    "students_who_agree_are_shown_the_same"
   ],
   "note": "Areas that are not degrees; both students' areas load. Which classes are unusable is given by the predicates of C186 to C188 (asks_about_others, idle, not_excepted), and where records are looked at by those of C187."
  },
  {
   "property": "C20",
   "status": "proved",
   "theorems": [
    "where_clause_is_boolean_formula",
    "loaded_clause_reads_like_its_data",
    "clause_compares_the_named_field"
   ],
   "note": "Clauses whose comparisons raise nothing; method caches not modelled."
  },
  {
   "property": "C21",
   "status": "proved",
   "theorems": [
    "grade_order_total_and_consistent",
    "grade_points_scale"
   ],
   "note": ""
  },
  {
   "property": "C22",
   "status": "proved",
   "theorems": [
    "covid_grade_only_in_covid_term"
   ],
   "note": ""
  },
  {
   "property": "C23",
   "status": "proved",
   "theorems": [
    "gpa_is_cut_quotient",
    "gpa_depends_on_counted_courses_only",
    "gpa_between_0_and_4",
    "loaded_course_points"
   ],
   "note": "Exact quotient (python rounds to 28 digits first)."
  },
  {
   "property": "C24",
   "status": "proved",
   "theorems": [
    "loaded_transcript_is_clean",
    "transcript_loads",
    "distinct_rows_keep_their_ids"
   ],
   "note": ""
  },
  {
   "property": "C25",
   "status": "proved",
   "theorems": [
    "credits_come_from_the_last_override",
    "subject_comes_from_the_last_override",
    "overrides_affect_only_their_course"
   ],
   "note": ""
  },
  {
   "property": "C26",
   "status": "partial",
   "theorems": [
    "passing_iff_comparison_holds",
    "done_iff_finished_courses_suffice",
    "evaluation_succeeds",
    "other_items_done_iff_comparison_holds",
    "most_common_done_refuted"
   ],
   "note": "Proved for every key; the done/pending split is refuted for the two most-common keys, whose second evaluation reads an exhausted generator (most_common_done_refuted)."
  },
  {
   "property": "C27",
   "status": "proved",
   "theorems": [
    "keys_measure_quantities",
    "quantity_is_determined",
    "every_key_is_computed",
    "quantities_ignore_order",
    "counts_are_bounded",
    "most_common_ignores_order_refuted",
    "quantities_of_other_items_refused"
   ],
   "note": "All keys; the two most-common keys, which the claim does not mention, do depend on order."
  },
  {
   "property": "C28",
   "status": "partial",
   "theorems": [
    "useful_sizes_are_tried",
    "sizes_tried_are_exactly",
    "sizes_fit_for_gte_and_eq",
    "fractional_threshold_fails",
    "sizes_fit_refuted"
   ],
   "note": "Every useful size is tried and the exact set of sizes is given; 'at most n' and 'at least one' hold for $gte and $eq and are refuted for $gt, $lt, $lte, $neq."
  },
  {
   "property": "C29",
   "status": "proved",
   "theorems": [
    "query_solutions_exact",
    "tried_selections_are_offered",
    "sufficient_counts_are_offered",
    "sufficient_credits_are_offered",
    "all_selections_are_offered",
    "unclaiming_query_offers_everything",
    "satisfying_selection_is_offered_refuted"
   ],
   "note": "Exact set of selections tried; the wider reading (a selection satisfying several assertions is always tried) is refuted."
  },
  {
   "property": "C30",
   "status": "proved",
   "theorems": [
    "threshold_is_as_changed"
   ],
   "note": "Whole loader of a single assertion."
  },
  {
   "property": "C31",
   "status": "partial",
   "theorems": [
    "if_without_alternative_counts_as_unmet",
    "when_false_counts_as_met",
    "loaded_dynamic_condition_is_open",
    "conditional_assertion_neutral_refuted"
   ],
   "note": "Refuted: a false $if without else counts as unmet, a false $when counts as met."
  },
  {
   "property": "C32",
   "status": "proved",
   "theorems": [
    "rank_is_bounded",
    "rank_is_defined",
    "rank_always_defined_refuted"
   ],
   "note": "0 <= rank <= max_rank for every tree whose assertions have non-negative thresholds and measured values; the upper bound needs no assumption. Computing the rank raises ValueError exactly when 'at most one of' nothing occurs."
  },
  {
   "property": "C33",
   "status": "proved",
   "theorems": [
    "count_status_exact",
    "count_passes_only_with_enough"
   ],
   "note": ""
  },
  {
   "property": "C34",
   "status": "proved",
   "theorems": [
    "complete_tree_is_achieved"
   ],
   "note": ""
  },
  {
   "property": "C35",
   "status": "partial",
   "theorems": [
    "waived_nodes_are_complete_partial",
    "waived_conditional_is_complete_refuted",
    "waived_node_has_one_solution"
   ],
   "note": "Holds for every class of node except conditionals, whose 'overridden' flag nothing looks at (refuted with a witness)."
  },
  {
   "property": "C36",
   "status": "proved",
   "theorems": [
    "failed_invariant_not_masked"
   ],
   "note": ""
  },
  {
   "property": "C37",
   "status": "proved",
   "theorems": [
    "path_comparison_decides_order",
    "path_order_strict",
    "children_order_is_canonical",
    "path_order_needs_canonical_indices"
   ],
   "note": "For paths whose indices are written canonically, as the loader does; counterexample given otherwise."
  },
  {
   "property": "C38",
   "status": "proved",
   "theorems": [
    "classification_exact"
   ],
   "note": "Both children of a pair must be declared always disjoint for a shared match to be ignored; a single child is independent even if it is never disjoint."
  },
  {
   "property": "C39",
   "status": "proved",
   "theorems": [
    "solutions_exact",
    "count_solution_lists_every_child_once"
   ],
   "note": "solutions without independently solved children; see C38 for those"
  },
  {
   "property": "C40",
   "status": "partial",
   "theorems": [
    "barren_rules_have_no_solution",
    "listable_rules_raise_nothing",
    "listable_rules_yield",
    "every_rule_yields_refuted",
    "query_always_yields",
    "course_rule_yields_or_raises"
   ],
   "note": "false in general: a conditional selecting a missing branch yields nothing and an exception beneath a requirement around it makes the count raise; the exact condition for yielding is proved"
  },
  {
   "property": "C41",
   "status": "partial",
   "theorems": [
    "query_candidates_exact",
    "query_outputs_are_candidates",
    "excluded_courses_are_not_offered",
    "inserted_courses_are_offered_partial",
    "forced_courses_pass_limits",
    "inserted_course_is_offered_refuted"
   ],
   "note": "Inserted courses are lost when no selection size is possible (refuted with witness); all the rest holds."
  },
  {
   "property": "C42",
   "status": "partial",
   "theorems": [
    "course_solutions_exact",
    "offered_course_is_eligible",
    "course_matches_every_field_refuted",
    "unknown_sub_type_is_ignored"
   ],
   "note": "The exact set of offered courses is proved. The property itself is refuted: section, year, term and sub-type are only compared when the rule names a course, a class id bypasses every other field, and unknown sub-type letters are ignored."
  },
  {
   "property": "C43",
   "status": "partial",
   "theorems": [
    "blocked_course_not_offered_in_tree",
    "solved_parts_come_from_the_rule",
    "block_elsewhere_leaves_tree",
    "blocked_everywhere_refuted",
    "blocked_course_not_offered_by_query",
    "blocked_course_not_offered_by_course_rule"
   ],
   "note": "false for the course beneath a proficiency rule, which a block exception does not reach"
  },
  {
   "property": "C44",
   "status": "partial",
   "theorems": [
    "from_claimed_needs_a_claim_refuted",
    "from_claimed_claims_are_shared"
   ],
   "note": "Refuted: the solution forgets from_claimed, so the check is never made. Proved instead: a from_claimed rule never takes a course away from others."
  },
  {
   "property": "C45",
   "status": "proved",
   "theorems": [
    "exception_lookups_exact",
    "exception_beneath_exact",
    "exception_refused_exactly"
   ],
   "note": ""
  },
  {
   "property": "C46",
   "status": "proved",
   "theorems": [
    "migrations_rewrite_prefix",
    "loaded_action_is_the_requested_one"
   ],
   "note": ""
  },
  {
   "property": "C47",
   "status": "proved",
   "theorems": [
    "exclusively_claimed_once",
    "audit_is_one_claim_history",
    "solutions_are_unaudited"
   ],
   "note": "leaves that may share a course (forced, allow_claimed, attempt_claims false, claimed source) are excluded, as are multicountable courses"
  },
  {
   "property": "C48",
   "status": "proved",
   "theorems": [
    "claims_exact",
    "gpa_claims_are_claims",
    "unmarked_claims_count"
   ],
   "note": "The area level use of these claims is in the Area layer."
  },
  {
   "property": "C49",
   "status": "proved",
   "theorems": [
    "major_needs_common",
    "common_block_exact",
    "area_audit_exact"
   ],
   "note": ""
  },
  {
   "property": "C50",
   "status": "proved",
   "theorems": [
    "audits_do_not_interfere",
    "area_solutions_exact",
    "area_solution_origin",
    "area_context"
   ],
   "note": ""
  },
  {
   "property": "C51",
   "status": "partial",
   "theorems": [
    "one_active_result",
    "a_saved_result_is_active",
    "one_active_result_with_workers_refuted",
    "one_active_result_with_waiting_refuted"
   ],
   "note": "Proved for every run in which no two workers store results of the same student and area at once. Without that condition it is false of the code: two refutations with witnesses."
  },
  {
   "property": "C52",
   "status": "partial",
   "theorems": [
    "work_is_invisible_until_commit",
    "commit_is_all_or_nothing",
    "a_stopped_worker_leaves_no_trace",
    "items_are_settled",
    "items_are_settled_once",
    "failures_are_logged_refuted",
    "failures_keep_the_old_result_refuted",
    "failed_items_leave_the_queue_refuted",
    "items_of_unknown_areas_are_removed_refuted"
   ],
   "note": "Crash safety, atomicity and settlement are proved for every interleaving of any number of workers. Removal with neither result nor log entry happens only if a worker stops between the two, which is shown possible; three further refutations record what failing statements do."
  },
  {
   "property": "C53",
   "status": "proved",
   "theorems": [
    "the_first_item_is_taken",
    "nothing_is_left_when_a_worker_finds_nothing",
    "a_lone_worker_serves_the_queue",
    "failed_items_leave_the_queue_refuted"
   ],
   "note": "Order for every state and worker; that every item is taken exactly once, in order, and that the worker comes to an end, for a worker alone with the queue however its audits fare. With failing statements an item can be taken for ever (refutation)."
  },
  {
   "property": "C54",
   "status": "partial",
   "theorems": [
    "no_item_is_left_lying",
    "no_item_is_missed_at_the_start_refuted",
    "no_item_is_missed_after_a_failure_refuted"
   ],
   "note": "Proved for workers that listen already and barring crashes and failing statements; false at start-up and after a crash of another worker."
  },
  {
   "property": "C55",
   "status": "partial",
   "theorems": [
    "stored_revisions_are_distinct",
    "revisions_increase_refuted",
    "revisions_follow_the_largest"
   ],
   "note": "Revisions stored at one time are distinct if workers do not store results of the same student and area at once; that they increase over time is false of the code."
  },
  {
   "property": "C56",
   "status": "proved",
   "theorems": [
    "expiry_removes_superseded_results_only",
    "expiry_keeps_the_newest_result",
    "expiry_keeps_the_active_result_refuted"
   ],
   "note": "Exactly the expired results that are not the newest of their student, catalog and area are removed. The active one need not be kept (refutation)."
  },
  {
   "property": "C57",
   "status": "partial",
   "theorems": [
    "a_student_is_expanded",
    "only_eligible_rows_are_queued",
    "a_batch_queues_no_pair_twice",
    "every_eligible_row_is_queued_and_counted",
    "the_reported_number_is_too_small_refuted",
    "the_reported_number_is_too_large_refuted",
    "rows_queued_meanwhile_are_skipped_refuted",
    "a_failing_statement_undoes_the_open_rows"
   ],
   "note": "Insertion is proved for every interleaving and failure, relative to the queue as it was read at the start; the number reported is right when nothing fails, and wrong otherwise (two refutations)."
  },
  {
   "property": "C58",
   "status": "proved",
   "theorems": [
    "newest_applicable_area_is_found",
    "only_catalogs_are_used_refuted"
   ],
   "note": "For listings whose folders with a dash are those of catalogs of the years 1000 to 9998. With other folders it is false (refuted with a witness)."
  },
  {
   "property": "C59",
   "status": "proved",
   "theorems": [
    "durations_decompose",
    "all_durations_decompose_refuted"
   ],
   "note": "Proved below 2*10^27 ms; beyond the precision of decimal division it is false (witness)."
  },
  {
   "property": "C60",
   "status": "proved",
   "theorems": [
    "conditional_follows_its_branch",
    "solutions_exact"
   ],
   "note": ""
  },
  {
   "property": "C61",
   "status": "proved",
   "theorems": [
    "keyed_claims_exact",
    "keyed_claims_lose_nothing"
   ],
   "note": ""
  },
  {
   "property": "C62",
   "status": "proved",
   "theorems": [
    "condition_is_boolean_formula",
    "evaluation_agrees_with_loading",
    "dynamic_condition_is_boolean_formula"
   ],
   "note": ""
  },
  {
   "property": "C63",
   "status": "proved",
   "theorems": [
    "constants_are_substituted",
    "loaded_clause_is_well_formed"
   ],
   "note": ""
  },
  {
   "property": "C64",
   "status": "partial",
   "theorems": [
    "some_variant_is_emitted_refuted",
    "some_variant_is_emitted_partial",
    "some_selection_is_tried"
   ],
   "note": "False when a credit limit overlaps a course limit; proved for course limits. Proved as well with credit limits if no class under one is under another limit and each is worth credits (some_selection_is_tried)."
  },
  {
   "property": "C65",
   "status": "proved",
   "theorems": [
    "in_progress_terms"
   ],
   "note": ""
  },
  {
   "property": "C66",
   "status": "proved",
   "theorems": [
    "dropped_areas_are_invisible",
    "terms_since_declaring_exact"
   ],
   "note": ""
  },
  {
   "property": "C67",
   "status": "proved",
   "theorems": [
    "audited_assertion_measures"
   ],
   "note": ""
  },
  {
   "property": "C68",
   "status": "proved",
   "theorems": [
    "estimate_bounds_solutions",
    "estimate_is_exact",
    "estimate_is_exact_refuted"
   ],
   "note": "Upper bound always; exactness in general is refuted with witness."
  },
  {
   "property": "C69",
   "status": "proved",
   "theorems": [
    "claiming_query_audit",
    "unclaiming_query_audit",
    "claimed_query_audit",
    "other_query_audit",
    "waived_query_audit"
   ],
   "note": ""
  },
  {
   "property": "C70",
   "status": "proved",
   "theorems": [
    "query_status_is_conjunction",
    "query_passes_iff_all_pass"
   ],
   "note": ""
  },
  {
   "property": "C71",
   "status": "proved",
   "theorems": [
    "loaded_query_exact",
    "query_refused_exactly"
   ],
   "note": ""
  },
  {
   "property": "C72",
   "status": "proved",
   "theorems": [
    "course_audit_exact",
    "course_result_fields"
   ],
   "note": ""
  },
  {
   "property": "C73",
   "status": "proved",
   "theorems": [
    "course_result_status_exact",
    "course_rank_bounded"
   ],
   "note": ""
  },
  {
   "property": "C74",
   "status": "proved",
   "theorems": [
    "required_course_exact"
   ],
   "note": ""
  },
  {
   "property": "C75",
   "status": "proved",
   "theorems": [
    "loaded_course_exact",
    "course_path_exact",
    "course_refused_exactly",
    "loaded_course_rest"
   ],
   "note": ""
  },
  {
   "property": "C76",
   "status": "proved",
   "theorems": [
    "course_potential_exact"
   ],
   "note": ""
  },
  {
   "property": "C77",
   "status": "proved",
   "theorems": [
    "tree_status_exact",
    "tree_rank_exact"
   ],
   "note": ""
  },
  {
   "property": "C78",
   "status": "proved",
   "theorems": [
    "count_audit_status_exact"
   ],
   "note": ""
  },
  {
   "property": "C79",
   "status": "proved",
   "theorems": [
    "required_courses_exact",
    "excluded_courses_stay_out_of_queries",
    "exclude_leaves_course_rules"
   ],
   "note": "course rules of the tree: required_course_exact (C74)"
  },
  {
   "property": "C80",
   "status": "proved",
   "theorems": [
    "matches_exact"
   ],
   "note": ""
  },
  {
   "property": "C81",
   "status": "proved",
   "theorems": [
    "potential_exact",
    "query_potential_exact"
   ],
   "note": ""
  },
  {
   "property": "C82",
   "status": "proved",
   "theorems": [
    "audit_result",
    "audit_is_one_claim_history"
   ],
   "note": ""
  },
  {
   "property": "C83",
   "status": "proved",
   "theorems": [
    "top_solutions_exact",
    "top_solutions_claims",
    "top_solutions_otherwise"
   ],
   "note": ""
  },
  {
   "property": "C84",
   "status": "proved",
   "theorems": [
    "claims_are_among_the_matches",
    "solved_apart_share_no_course",
    "always_disjoint_exact",
    "never_disjoint_exact"
   ],
   "note": "For rules without from_claimed course rules or recording queries over claimed courses, which share by design, and with inserted courses on the transcript."
  },
  {
   "property": "C85",
   "status": "partial",
   "theorems": [
    "claimed_queries_see_the_rest_refuted",
    "claimed_queries_see_the_rest_partial"
   ],
   "note": "Refuted: only requirements pass is_never_disjoint on, so a query over claimed courses below a count is solved on an empty table and finds nothing."
  },
  {
   "property": "C86",
   "status": "partial",
   "theorems": [
    "print_all_says_every_result_refuted",
    "print_all_says_every_result_partial"
   ],
   "note": "False: the done or waived result that ends the loop is never printed. Proved for the others."
  },
  {
   "property": "C87",
   "status": "partial",
   "theorems": [
    "judged_from_the_same_claims_refuted",
    "judged_from_the_same_claims_partial"
   ],
   "note": "false of the code: only the first solution of a transcript sees the claims of independently solved children; holds if nothing is solved apart"
  },
  {
   "property": "C88",
   "status": "partial",
   "theorems": [
    "majors_meet_the_common_block_refuted",
    "major_needs_common"
   ],
   "note": "false of the code when the top rule asks for fewer children than it has; C49 is the case that holds"
  },
  {
   "property": "C89",
   "status": "proved",
   "theorems": [
    "area_status_exact",
    "area_gpa_exact"
   ],
   "note": ""
  },
  {
   "property": "C90",
   "status": "partial",
   "theorems": [
    "classes_are_used_once",
    "classes_are_used_once_in_results",
    "used_once_whatever_is_declared_refuted"
   ],
   "note": "Proved for areas whose top-level children do not both carry the declaration 'disjoint: true'; refuted without that condition by two children so marked that match the same class. Also assumes that no class is both forced in and inserted without force, and that class ids determine the student's courses. The common block of a major is excluded (its queries do not claim)."
  },
  {
   "property": "C91",
   "status": "proved",
   "theorems": [
    "loaded_exactly",
    "requirement_loaded_exactly",
    "loaded_once"
   ],
   "note": "Iff with an inductive description (LoaderSpec.written). Key \"__emphasis\" is represented by the entry kind."
  },
  {
   "property": "C92",
   "status": "proved",
   "theorems": [
    "loaded_places_differ",
    "loaded_body_places_differ",
    "emphases_places_differ_refuted"
   ],
   "note": "Proved for emphases whose keys differ; refuted for two emphases of the same name, which share their path."
  },
  {
   "property": "C93",
   "status": "proved",
   "theorems": [
    "loaded_is_fresh",
    "loaded_is_unaudited"
   ],
   "note": ""
  },
  {
   "property": "C94",
   "status": "partial",
   "theorems": [
    "counts_have_enough_children",
    "counts_have_enough_children_refuted"
   ],
   "note": "Proved without hidden conditionals; with them a count can ask for more children than are left (refuted)."
  },
  {
   "property": "C95",
   "status": "proved",
   "theorems": [
    "insertions_are_children",
    "insertion_is_a_child"
   ],
   "note": ""
  },
  {
   "property": "C96",
   "status": "proved",
   "theorems": [
    "declared_requirements_are_used",
    "references_are_resolved",
    "validity_is_the_same_for_all_refuted"
   ],
   "note": "Whether a requirement counts as used depends on the student through conditionals (refuted that validity is the same for everybody)."
  },
  {
   "property": "C97",
   "status": "proved",
   "theorems": [
    "six_credits_rule",
    "su_rule",
    "outside_rule",
    "common_rules_load"
   ],
   "note": "No exceptions aimed at the common rules. A department code that starts with a dollar sign is read as a constant and refused (common_rules_load_example). Courses of other than exactly one credit taken S/U are not counted (su_example)."
  },
  {
   "property": "C98",
   "status": "proved",
   "theorems": [
    "common_block_demands"
   ],
   "note": "No exceptions aimed at the common rules."
  },
  {
   "property": "C99",
   "status": "proved",
   "theorems": [
    "area_loaded_exactly"
   ],
   "note": "If and only if, assuming no department code begins with a dollar sign."
  }
 ]
}
