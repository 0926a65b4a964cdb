{
 "ids start at 0": [
  "C04_add_ids_to_document (added)"
 ],
 "md: lines keeps CR": [
  "C66_lines (added)"
 ],
 "parser: hex digits upper off by one": [
  "C57_hexadecimal (added)",
  "C57_nothing_else (added)"
 ],
 "generic transform: heading data taken from nowhere: kind reset": [
  "C87_generic_methods_called (added)",
  "C88_generic_rebuilt (added)"
 ],
 "generic transform: definition label not transformed": [
  "C87_generic_methods_called (added)",
  "C88_generic_rebuilt (added)"
 ],
 "generic transform: code blocks skip their hook": [
  "C87_generic_methods_called (added)",
  "C88_generic_rebuilt (added)"
 ],
 "generic expand: list items not expanded": [
  "C89_generic_expansion_partial (added)"
 ],
 "generic expand: extra images dropped": [
  "C89_generic_expansion_partial (added)"
 ],
 "generic transform: label visited after text": [
  "C87_generic_methods_called (added)",
  "C88_generic_rebuilt (added)"
 ],
 "generic transform: heading data lost to content order": [
  "C87_generic_methods_called (added)",
  "C88_generic_rebuilt (added)"
 ],
 "transform: heading hook skipped": [
  "C87_generic_methods_called (added)",
  "C88_generic_rebuilt (added)"
 ],
 "transform: list item hook skipped": [
  "C87_generic_methods_called (added)",
  "C88_generic_rebuilt (added)"
 ],
 "transform: text hook skipped": [
  "C87_generic_methods_called (added)",
  "C88_generic_rebuilt (added)"
 ],
 "transform: alert hook runs on the walked alert": [
  "C87_generic_methods_called (added)",
  "C88_generic_rebuilt (added)"
 ],
 "transform: definition label not transformed": [
  "C87_generic_methods_called (added)",
  "C88_generic_rebuilt (added)"
 ],
 "ids start at 0 (again)": [
  "C04_add_ids_to_document (added)"
 ],
 "md: lines keeps CR (again)": [
  "C66_lines (added)"
 ],
 "md: quote three columns narrower": [
  "C68_layout (added)"
 ],
 "md: trailing blank never breaks": [
  "C68_layout (added)"
 ],
 "md: alert laid out in 79 columns": [
  "C68_layout (added)"
 ],
 "pretty: fit boundary off by one (again)": [
  "C68_layout (added)"
 ],
 "b11-html-resolve-text": [
  "C29_rendered (added)"
 ]
}