{
"H10": "at the break arguments and arguments_after_search are equal (arguments = arguments_after_search is executed just before)",
"A0116": "max_element is only called on non-empty vectors",
"A0186": "the flag of a new chain is set before it is read",
"A0591": "rank 0 is never sent a task",
"A0628": "the modulus is 2^64 or larger: the windows read before a wrap are the same",
"A0972": "the result is conjoined with the other check, which is false in this case",
"A0976": "the index comes from the random choice among the positions and is always in range",
"A1028": "p_set_chromosome overwrites every element of the buffer",
"B0081": "the sample of a constructed array always has a chromosome size (dp_make sets it): the branch for a missing size is not reached"
}