{
 "C01": {"note": "Holds for everything behind a safe_observer; refuted for scan with a raising accumulator directly in front of the subscriber (C01_grammar_scan_refuted)."},
 "C09": {"note": "Behind a hot source an exception of the mapper goes to the sender instead (C09_map_hot_exception)."},
 "C15": {"note": "Elements equal to None are dropped (C15_keeps_all_elements_refuted)."},
 "C17": {"note": "Exact behaviour also for raising accumulators; scan_async with overlapping senders is modelled only through sequential senders."},
 "C20": {"note": "Python's slice under four conditions; exact behaviour for all arguments; refuted for stop=0 and for start<0<stop."},
 "C21": {"note": "The result ends with the first completion of either source."},
 "C22": {"note": "The result ends with the first completion of either source."}
}
